(* C67: eig; C68: eigs for small matrices. *)
From Verif Require Import Base Spec S_Fold S_Reduce M_Tensor M_Eig S_Eig L_Lin L_Fold L_Reduce L_Eig.
Local Open Scope nat_scope.

(* real matrices: all the values are eigenvalues; column k of R is a right
   eigenvector, and column k of L a left one, of the k-th *)
Theorem C67_real : forall R C (N : numops C) mk zero neg nonzero dgeev (A : tensor R) n wantR wantL,
  numlaws N -> is_complex N mk zero neg -> wf A -> dims A = [n; n] -> 0 < n ->
  dgeev_good N mk zero neg nonzero dgeev wantL wantR n (data A) ->
  exists w vR vL, eig mk zero neg nonzero dgeev A wantR wantL = Ok (w, vR, vL) /\
    wf w /\ dims w = [n] /\
    (forall k, k < n -> eigenvalue N (complex_entries mk zero A) n (val N w [k])) /\
    columns_are N wantR vR n (fun k => right_vector N (complex_entries mk zero A) n (val N w [k])) /\
    columns_are N wantL vL n (fun k => left_vector N (complex_entries mk zero A) n (val N w [k])).
Proof. intros R C N mk zero neg nonzero dgeev A n wantR wantL L X. apply eig_ok; auto. Qed.
Print Assumptions C67_real.

Theorem C67_complex : forall C (N : numops C) zgeev (A : tensor C) n wantR wantL,
  wf A -> dims A = [n; n] -> 0 < n -> zgeev_good N zgeev wantL wantR n (data A) ->
  exists w vR vL, eig_z zgeev A wantR wantL = Ok (w, vR, vL) /\
    wf w /\ dims w = [n] /\
    (forall k, k < n -> eigenvalue N (fun i k => val N A [i; k]) n (val N w [k])) /\
    columns_are N wantR vR n (fun k => right_vector N (fun i k => val N A [i; k]) n (val N w [k])) /\
    columns_are N wantL vL n (fun k => left_vector N (fun i k => val N A [i; k]) n (val N w [k])).
Proof. intros C N zgeev A n wantR wantL. apply eig_z_ok. Qed.
Print Assumptions C67_complex.

(* anything but a square, non-empty matrix is refused *)
Theorem C67_rejects : forall R C mk zero neg nonzero dgeev zgeev (A : tensor R) (B : tensor C) wantR wantL,
  ((forall n, dims A = [n; n] -> n = 0) -> @eig R C mk zero neg nonzero dgeev A wantR wantL = Abort) /\
  ((forall n, dims B = [n; n] -> n = 0) -> eig_z zgeev B wantR wantL = Abort).
Proof.
  intros. split; intros H; [unfold eig|unfold eig_z]; [apply (eig_checks_rejects A (fun n => _) H)|apply (eig_checks_rejects B (fun n => _) H)].
Qed.
Print Assumptions C67_rejects.

Definition Gpair (x y : Z) : Z * Z := (x, y).
Lemma Gcomplex : is_complex Gnum Gpair 0%Z Z.opp.
Proof. split; reflexivity. Qed.
Definition Znonzero (x : Z) : bool := negb (x =? 0)%Z.

(* [[1 1] [0 2]] *)
Definition tri : tensor Z := mkT [2; 2] [1; 0; 1; 2]%Z.
Definition tri_geev (wl wr : bool) (n : nat) (a : list Z) : list Z * list Z * list Z * list Z :=
  ([1; 2], [0; 0], [1; -1; 0; 1], [1; 0; 1; 1])%Z.
Lemma pair_ne (x y : Z) : (x =? 0)%Z && (y =? 0)%Z = false -> (x, y) <> nzero Gnum.
Proof. intros H E. injection E as -> ->. discriminate. Qed.
Ltac small n := let i := fresh in let Hi := fresh in intros i Hi; destruct i as [|[|i]]; [| |exfalso; cbn in Hi; lia].
Ltac vec k := split; [exists k; split; [lia|apply pair_ne; reflexivity]|small 2; reflexivity].
Lemma tri_good wl wr : dgeev_good Gnum Gpair 0%Z Z.opp Znonzero tri_geev wl wr 2 (data tri).
Proof.
  unfold dgeev_good, tri_geev, tri. cbv iota beta. do 4 (split; [reflexivity|]). cbn [data].
  apply packed_real; [lia|reflexivity| |apply packed_real; [lia|reflexivity| |apply packed_end]].
  - split; [|split].
    + exists (fun j => Gpair (nth j [1; 0]%Z 0%Z) 0%Z). vec 0.
    + intros _. vec 0.
    + intros _. vec 0.
  - split; [|split].
    + exists (fun j => Gpair (nth j [1; 1]%Z 0%Z) 0%Z). vec 0.
    + intros _. vec 0.
    + intros _. vec 1.
Qed.

(* the comments say that L A = D L; it is the adjoint of L that satisfies this *)
Theorem C67_left_documented_refuted :
  exists (dgeev : bool -> bool -> nat -> list Z -> list Z * list Z * list Z * list Z) (A : tensor Z) w vL,
    dgeev_good Gnum Gpair 0%Z Z.opp Znonzero dgeev true false 2 (data A) /\ wf A /\ dims A = [2; 2] /\
    eig Gpair 0%Z Z.opp Znonzero dgeev A false true = Ok (w, None, Some vL) /\
    ~ (forall j k, j < 2 -> k < 2 ->
         sum_n Gnum 2 (fun i => nmul Gnum (val Gnum vL [j; i]) (complex_entries Gpair 0%Z A i k)) = nmul Gnum (val Gnum w [j]) (val Gnum vL [j; k])).
Proof.
  exists tri_geev, tri. eexists. eexists. split; [apply tri_good|]. split; [reflexivity|]. split; [reflexivity|]. split; [vm_compute; reflexivity|].
  intros H. specialize (H 0 1 ltac:(lia) ltac:(lia)). vm_compute in H. discriminate.
Qed.
Print Assumptions C67_left_documented_refuted.

(* a rotation by 90 degrees, whose eigenvalues are i and -i *)
Definition rot : tensor Z := mkT [2; 2] [0; 1; -1; 0]%Z.
Definition rot_geev (wl wr : bool) (n : nat) (a : list Z) : list Z * list Z * list Z * list Z :=
  ([0; 0], [1; -1], [1; 0; 0; -1], [1; 0; 0; -1])%Z.
Lemma rot_good wl wr : dgeev_good Gnum Gpair 0%Z Z.opp Znonzero rot_geev wl wr 2 (data rot).
Proof.
  unfold dgeev_good, rot_geev, rot. cbv iota beta. do 4 (split; [reflexivity|]). cbn [data].
  apply packed_pair; [lia|reflexivity| |apply packed_end].
  split; [|split].
  + exists (fun j => Gpair (nth j [1; 0]%Z 0%Z) (nth j [0; -1]%Z 0%Z)). vec 0.
  + intros _. vec 0.
  + intros _. vec 0.
Qed.
Example C67_nonvacuous :
  dgeev_good Gnum Gpair 0%Z Z.opp Znonzero rot_geev true true 2 (data rot) /\ wf rot /\
  eig Gpair 0%Z Z.opp Znonzero rot_geev rot true true =
    Ok (mkT [2] [(0, 1); (0, -1)]%Z, Some (mkT [2; 2] [(1, 0); (0, -1); (1, 0); (0, 1)]%Z), Some (mkT [2; 2] [(1, 0); (0, -1); (1, 0); (0, 1)]%Z)) /\
  eig Gpair 0%Z Z.opp Znonzero tri_geev tri true false =
    Ok (mkT [2] [(1, 0); (2, 0)]%Z, Some (mkT [2; 2] [(1, 0); (0, 0); (1, 0); (1, 0)]%Z), None).
Proof. split; [apply rot_good|]. split; [reflexivity|]. split; vm_compute; reflexivity. Qed.
Example C67_nonvacuous_z :
  let zgeev := fun (wl wr : bool) (n : nat) (a : list (Z * Z)) => ([(1, 0); (2, 0)], [(1, 0); (-1, 0); (0, 0); (1, 0)], [(1, 0); (0, 0); (1, 0); (1, 0)])%Z in
  let A := mkT [2; 2] [(1, 0); (0, 0); (1, 0); (2, 0)]%Z in
  zgeev_good Gnum zgeev true true 2 (data A) /\
  eig_z zgeev A false true = Ok (mkT [2] [(1, 0); (2, 0)]%Z, None, Some (mkT [2; 2] [(1, 0); (-1, 0); (0, 0); (1, 0)]%Z)).
Proof.
  cbv zeta. split; [|reflexivity]. split; [reflexivity|]. split; [reflexivity|]. split; [reflexivity|]. cbv zeta. small 2.
  - split; [exists (fun j => nth j [(1, 0); (0, 0)]%Z (0, 0)%Z); vec 0|]. split; intros _; vec 0.
  - split; [exists (fun j => nth j [(1, 0); (1, 0)]%Z (0, 0)%Z); vec 0|]. split; intros _; [vec 0|vec 1].
Qed.

(* ------------------------------------------------------------------ *)
Section Eigs.
Context {R C : Type} (N : numops C) (L : numlaws N) (re im modulus : C -> R) (neg : R -> R) (lt : R -> R -> bool).
Context (Hlt : strict_total lt) (Hneg : forall x y, lt (neg x) (neg y) = lt y x).
Context (sorter : (nat -> nat -> bool) -> list nat -> list nat) (Hs : is_std_sort sorter) (junk : nat -> C).

(* Complex matrices of up to four rows: the neig eigenvalues that come first,
   in order, each with an eigenvector on the left.  (The comments promise
   eigenvectors; that they are those on the right is refuted below.  The
   iterative solver, for the matrices of more rows, is not modelled.) *)
Theorem C68_complex_partial : forall arpack zgeev (A : tensor C) n t neig want,
  wf A -> dims A = [n; n] -> 0 < neig -> neig <= n -> n <= 4 -> zgeev_good N zgeev want false n (data A) ->
  exists (w : nat -> C) sel u uv,
    (forall k, k < n -> eigenvalue N (fun i k => val N A [i; k]) n (w k)) /\
    first_ones (eig_before re im modulus lt t) n neig w sel /\
    wf u /\ dims u = [neig] /\ (forall x k, nth_error sel x = Some k -> elt u [x] = Some (w k)) /\
    match uv with
    | Some uv => want = true /\ wf uv /\ dims uv = [n; neig] /\
        forall x k, nth_error sel x = Some k -> left_vector N (fun i k => val N A [i; k]) n (w k) (fun i => val N uv [i; x])
    | None => want = false
    end /\
    exists F, forall fuel, F <= fuel ->
      eigs (fun x => x) false re im modulus neg lt sorter junk arpack (eig_z zgeev) fuel A t neig want = Ok (u, uv).
Proof.
  intros arpack zgeev A n t neig want W D H0 H1 H4 G.
  destruct (eig_z_ok N zgeev A n false want W D ltac:(lia) G) as (w & vR & vL & E & Ww & Dw & Hv & _ & HL).
  destruct (eigs_small_ok N (fun x => x) false re im modulus neg lt Hlt Hneg sorter Hs junk arpack (eig_z zgeev) A n t neig want w vR vL) as (sel & FO & u & uv & (Wu & Du & Hu & Huv) & F); auto.
  { destruct vL as [vL|]; cbn in HL |- *; [|auto]. destruct HL as (? & ? & ? & _). auto. }
  exists (fun k => val N w [k]), sel, u, uv. repeat (split; [assumption|]). split; [|exact F].
  destruct uv as [uv|], vL as [vL|]; cbn in HL; try contradiction; [|auto].
  destruct HL as (Hw & WL & DL & HL), Huv as (Wv & Dv & Hv'). repeat (split; [assumption|]). intros x k Hx.
  destruct FO as (_ & _ & Hk & _). specialize (Hk k (nth_error_In _ _ Hx)).
  destruct (HL k Hk) as ((q & Hq & Hq') & H).
  assert (Ev : forall i, i < n -> val N uv [i; x] = val N vL [i; k]) by (intros i Hi; unfold val at 1; rewrite (Hv' x k i Hx Hi); reflexivity).
  split; [exists q; rewrite Ev by auto; auto|]. intros i Hi. rewrite Ev, <- H by auto. apply sum_ext. intros j Hj. rewrite Ev by auto. reflexivity.
Qed.

(* Real matrices of up to four rows: the real parts of those eigenvalues. *)
Theorem C68_real_partial : forall arpack mk zero rneg nonzero dgeev (A : tensor R) n t neig want,
  is_complex N mk zero rneg -> (forall x y, re (mk x y) = x) ->
  wf A -> dims A = [n; n] -> 0 < neig -> neig <= n -> n <= 4 -> dgeev_good N mk zero rneg nonzero dgeev want false n (data A) ->
  exists (w : nat -> C) sel u uv,
    (forall k, k < n -> eigenvalue N (complex_entries mk zero A) n (w k)) /\
    first_ones (eig_before re im modulus lt t) n neig w sel /\
    wf u /\ dims u = [neig] /\ (forall x k, nth_error sel x = Some k -> elt u [x] = Some (re (w k))) /\
    match uv with
    | Some uv => want = true /\ wf uv /\ dims uv = [n; neig] /\
        forall x k, nth_error sel x = Some k -> exists v, left_vector N (complex_entries mk zero A) n (w k) v /\ forall i, i < n -> elt uv [i; x] = Some (re (v i))
    | None => want = false
    end /\
    exists F, forall fuel, F <= fuel ->
      eigs re true re im modulus neg lt sorter junk arpack (eig mk zero rneg nonzero dgeev) fuel A t neig want = Ok (u, uv).
Proof.
  intros arpack mk zero rneg nonzero dgeev A n t neig want X Hre W D H0 H1 H4 G.
  destruct (eig_ok N L mk zero rneg nonzero X dgeev A n false want W D ltac:(lia) G) as (w & vR & vL & E & Ww & Dw & Hv & _ & HL).
  destruct (eigs_small_ok N re true re im modulus neg lt Hlt Hneg sorter Hs junk arpack (eig mk zero rneg nonzero dgeev) A n t neig want w vR vL) as (sel & FO & u & uv & (Wu & Du & Hu & Huv) & F); auto.
  { destruct vL as [vL|]; cbn in HL |- *; [|auto]. destruct HL as (? & ? & ? & _). auto. }
  exists (fun k => val N w [k]), sel, u, uv. repeat (split; [assumption|]). split; [|exact F].
  destruct uv as [uv|], vL as [vL|]; cbn in HL; try contradiction; [|auto].
  destruct HL as (Hw & WL & DL & HL), Huv as (Wv & Dv & Hv'). repeat (split; [assumption|]). intros x k Hx.
  destruct FO as (_ & _ & Hk & _). specialize (Hk k (nth_error_In _ _ Hx)). exists (fun i => val N vL [i; k]). split; [apply HL; auto|]. intros i Hi. apply Hv'; auto.
Qed.

End Eigs.

(* no matrix but a square one, no more eigenvalues than rows, not zero; and not
   all of them if there are more than four, although the message printed says
   otherwise *)
Theorem C68_rejects : forall E R C (proj : C -> E) rp (re im modulus : C -> R) neg lt sorter junk arpack eig_ fuel (A : tensor E) t neig want,
  ((forall n, dims A <> [n; n]) \/ (exists n, dims A = [n; n] /\ (n < neig \/ neig = 0 \/ (4 < n /\ neig = n)))) ->
  eigs proj rp re im modulus neg lt sorter junk arpack eig_ fuel A t neig want = Abort.
Proof. intros. apply eigs_rejects. auto. Qed.
Print Assumptions C68_complex_partial.
Print Assumptions C68_real_partial.
Print Assumptions C68_rejects.

Notation Zeigs := (eigs fst true fst snd (fun x => (fst x * fst x + snd x * snd x)%Z) Z.opp Z.ltb insertion_sort).
(* a real matrix with real eigenvalues: what is returned is not an eigenvector *)
Theorem C68_right_vectors_refuted :
  exists (dgeev : bool -> bool -> nat -> list Z -> list Z * list Z * list Z * list Z) (A : tensor Z) w v,
    dgeev_good Gnum Gpair 0%Z Z.opp Znonzero dgeev true false 2 (data A) /\ wf A /\ dims A = [2; 2] /\
    (forall arpack junk fuel, 100 <= fuel -> Zeigs junk arpack (eig Gpair 0%Z Z.opp Znonzero dgeev) fuel A LargestMagnitude 2 true = Ok (w, Some v)) /\
    dims w = [2] /\ dims v = [2; 2] /\
    ~ (forall i j, i < 2 -> j < 2 -> sum_n Znum 2 (fun k => nmul Znum (val Znum A [i; k]) (val Znum v [k; j])) = nmul Znum (val Znum w [j]) (val Znum v [i; j])).
Proof.
  exists tri_geev, tri, (mkT [2] [2; 1]%Z), (mkT [2; 2] [0; 1; 1; -1]%Z). split; [apply tri_good|]. split; [reflexivity|]. split; [reflexivity|]. split.
  - intros arpack junk fuel Hf. do 100 (destruct fuel as [|fuel]; [lia|]). reflexivity.
  - split; [reflexivity|]. split; [reflexivity|]. intros H. specialize (H 0 0 ltac:(lia) ltac:(lia)). vm_compute in H. discriminate.
Qed.
Print Assumptions C68_right_vectors_refuted.

(* a rotation: 0 is returned, twice, and is not an eigenvalue *)
Theorem C68_complex_pairs_refuted :
  exists (dgeev : bool -> bool -> nat -> list Z -> list Z * list Z * list Z * list Z) (A : tensor Z) w,
    dgeev_good Gnum Gpair 0%Z Z.opp Znonzero dgeev false false 2 (data A) /\ wf A /\ dims A = [2; 2] /\
    (forall arpack junk fuel, 100 <= fuel -> Zeigs junk arpack (eig Gpair 0%Z Z.opp Znonzero dgeev) fuel A LargestMagnitude 2 false = Ok (w, None)) /\
    dims w = [2] /\
    ~ (exists k, k < 2 /\ eigenvalue Gnum (complex_entries Gpair 0%Z A) 2 (val Znum w [k], 0%Z)).
Proof.
  exists rot_geev, rot, (mkT [2] [0; 0]%Z). split; [apply rot_good|]. split; [reflexivity|]. split; [reflexivity|]. split.
  - intros arpack junk fuel Hf. do 100 (destruct fuel as [|fuel]; [lia|]). reflexivity.
  - split; [reflexivity|]. intros (k & Hk & x & (q & Hq & Hx) & H). apply Hx.
    assert (E0 : val Znum (mkT [2] [0; 0]%Z) [k] = 0%Z) by (destruct k as [|[|k]]; [reflexivity|reflexivity|lia]). rewrite E0 in H.
    pose proof (H 0 ltac:(lia)) as Ha. pose proof (H 1 ltac:(lia)) as Hb.
    cbn [sum_n] in Ha, Hb. destruct (x 0) as [p0 r0] eqn:Ex0, (x 1) as [p1 r1] eqn:Ex1.
    unfold complex_entries, Gpair, rot, Gnum, nmul, nadd, nzero, elt, validb, lin in Ha, Hb. cbn [dims data Nat.ltb Nat.leb andb nth_error Nat.add Nat.mul fst snd] in Ha, Hb.
    injection Ha as Ha1 Ha2. injection Hb as Hb1 Hb2. destruct q as [|[|q]]; [| |lia].
    + rewrite Ex0. unfold nzero, Gnum. f_equal; [destruct p0|destruct r0]; lia.
    + rewrite Ex1. unfold nzero, Gnum. f_equal; [destruct p1|destruct r1]; lia.
Qed.
Print Assumptions C68_complex_pairs_refuted.

Example C68_nonvacuous :
  strict_total Z.ltb /\ (forall x y, Z.ltb (- x) (- y) = Z.ltb y x) /\ @is_std_sort nat insertion_sort /\
  Zeigs (fun _ => (7, 7)%Z) (fun _ _ _ => UB) (eig Gpair 0%Z Z.opp Znonzero tri_geev) 100 tri LargestMagnitude 1 true = Ok (mkT [1] [2]%Z, Some (mkT [2; 1] [0; 1]%Z)) /\
  Zeigs (fun _ => (7, 7)%Z) (fun _ _ _ => UB) (eig Gpair 0%Z Z.opp Znonzero tri_geev) 100 tri SmallestReal 1 true = Ok (mkT [1] [1]%Z, Some (mkT [2; 1] [1; -1]%Z)).
Proof.
  split; [apply Zlt_total|]. split; [intros; lia|]. split; [intros f l; apply insertion_sort_ok|]. split; vm_compute; reflexivity.
Qed.
