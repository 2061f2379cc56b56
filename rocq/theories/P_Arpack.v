(* C73: eigs of matrices with more than four rows, of maps and of sparse
   matrices; the object that talks to ARPACK. *)
From Verif Require Import Base Spec S_Fold S_Reduce S_Cgs M_Tensor M_Eig S_Eig S_Sparse M_Sparse S_Arpack M_Arpack L_Lin L_Fold L_Kron L_Reduce L_Eig L_Arpack.
From Coq Require Import String List.
Import ListNotations.
Notation app := S_Cgs.app (only parsing).
Local Open Scope nat_scope.

Section Eigs.
Context {E R C S T : Type} (N : numops E) (rp : bool) (default_tol : T).
Context (aupd : problem T -> io E S -> io E S).
Context (eupd : problem T -> bool -> io E S -> list E -> list E -> Z * list E * list E).
Context (junk : nat -> E) (junk_state : S).
Context (proj : C -> E) (to_c : E -> C) (re im modulus : C -> R) (neg : R -> R) (lt : R -> R -> bool).
Context (sorter : (nat -> nat -> bool) -> list nat -> list nat) (junkc : nat -> C).
Context (eigE : tensor E -> bool -> bool -> outcome (tensor C * option (tensor C) * option (tensor C))).
Context (eigC : tensor C -> bool -> bool -> outcome (tensor C * option (tensor C) * option (tensor C))).
Notation zero := (nzero N).
Notation full := (eigs_full N rp default_tol aupd eupd junk junk_state proj re im modulus neg lt sorter junkc eigE).
Notation domap := (do_eigs N rp default_tol aupd eupd junk junk_state proj to_c re im modulus neg lt sorter junkc eigC).
Notation dosparse := (eigs_sparse N rp default_tol aupd eupd junk junk_state proj to_c re im modulus neg lt sorter junkc eigC).

(* Whatever the library is.  It is first called with legal parameters, the code
   of the eigenvalues wanted, and the vector to start with if there is one; what
   it asks is answered with the product by the matrix; and what it says in the
   end is what is returned. *)
Theorem C73_dense : forall (A : tensor E) n t code neig vectors conv,
  wf A -> dims A = [n; n] -> 4 < n -> 0 < neig -> neig < n -> arpack_code rp t = Some code ->
  exists p s0, legal rp p /\ p_n p = n /\ p_which p = code /\ p_nev p = neig /\ p_tol p = default_tol /\ first_call n vectors s0 /\
    forall s', dialogue zero (aupd p) n (app N n (fun i k => val N A [i; k])) s0 s' ->
      exists F, forall fuel, F <= fuel -> arpack_returns zero eupd p s' vectors conv (full fuel A (eigtype_int t) neig vectors conv).
Proof.
  intros A n t code neig vectors conv W D H4 H0 H1 Hc. exists (init_problem rp default_tol n code neig), (init_io junk junk_state n vectors).
  split; [eapply init_legal; eauto|]. do 4 (split; [reflexivity|]). split; [eapply init_first; eauto|]. intros s' Hd.
  destruct (iterative_ok N rp default_tol aupd eupd junk junk_state n t code neig vectors conv (dense_step N n A) _ s' Hc H0 H1 (dense_answers N (init_problem rp default_tol n code neig) A W D) Hd) as (F & HF).
  exists F. intros fuel Hf. rewrite (full_large N rp default_tol aupd eupd junk junk_state proj re im modulus neg lt sorter junkc eigE fuel A n) by (auto; lia). apply HF. auto.
Qed.

(* A map: any function on vectors. *)
Theorem C73_map : forall f g n t code neig vectors conv,
  operator_is zero f n g -> local_op n g -> 4 < n -> 0 < neig -> neig < n -> arpack_code rp t = Some code ->
  exists p s0, legal rp p /\ p_n p = n /\ p_which p = code /\ p_nev p = neig /\ p_tol p = default_tol /\ first_call n vectors s0 /\
    forall s', dialogue zero (aupd p) n g s0 s' ->
      exists F, forall fuel, F <= fuel -> arpack_returns zero eupd p s' vectors conv (domap fuel f n (eigtype_int t) neig vectors conv).
Proof.
  intros f g n t code neig vectors conv HO HLo H4 H0 H1 Hc. exists (init_problem rp default_tol n code neig), (init_io junk junk_state n vectors).
  split; [eapply init_legal; eauto|]. do 4 (split; [reflexivity|]). split; [eapply init_first; eauto|]. intros s' Hd.
  destruct (iterative_ok N rp default_tol aupd eupd junk junk_state n t code neig vectors conv (map_step f) _ s' Hc H0 H1 (map_answers N (init_problem rp default_tol n code neig) f g HO HLo) Hd) as (F & HF).
  exists F. intros fuel Hf. rewrite (domap_large N rp default_tol aupd eupd junk junk_state proj to_c re im modulus neg lt sorter junkc eigC fuel f n) by (auto; lia). apply HF. auto.
Qed.

(* A square sparse matrix. *)
Theorem C73_sparse : forall jd (A : sparse E) n t code neig vectors conv, numlaws N ->
  wf_sparse A -> srows A = n -> scols A = n -> 4 < n -> 0 < neig -> neig < n -> arpack_code rp t = Some code ->
  exists p s0, legal rp p /\ p_n p = n /\ p_which p = code /\ p_nev p = neig /\ p_tol p = default_tol /\ first_call n vectors s0 /\
    forall s', dialogue zero (aupd p) n (app N n (S_Sparse.entry zero A)) s0 s' ->
      exists F, forall fuel, F <= fuel -> arpack_returns zero eupd p s' vectors conv (dosparse jd fuel A (eigtype_int t) neig vectors conv).
Proof.
  intros jd A n t code neig vectors conv L W Hr Hc' H4 H0 H1 Hc. unfold eigs_sparse. rewrite Hc'.
  apply (C73_map (mmult_sp_t N jd junk A) (app N n (S_Sparse.entry zero A))); auto; [apply sparse_operator; auto|apply app_local].
Qed.

(* With a library that keeps its promises, what is returned are eigenvalues and
   eigenvectors, and those asked for; or eigs says that it failed. *)
Theorem C73_eigenpairs : forall (A : tensor E) wanted n t code neig vectors conv,
  wf A -> dims A = [n; n] -> 4 < n -> 0 < neig -> neig < n -> arpack_code rp t = Some code ->
  (forall p, legal rp p -> p_n p = n -> p_which p = code -> p_nev p = neig -> arpack_good N aupd eupd wanted p (fun i k => val N A [i; k])) ->
  exists F, forall fuel, F <= fuel -> found N (wanted code) (fun i k => val N A [i; k]) n neig vectors conv (full fuel A (eigtype_int t) neig vectors conv).
Proof.
  intros A wanted n t code neig vectors conv W D H4 H0 H1 Hc G.
  destruct (good_found N rp default_tol aupd eupd junk junk_state wanted n t code neig vectors conv (dense_step N n A) (fun i k => val N A [i; k]) Hc H0 H1) as (F & HF).
  { apply (dense_answers N (init_problem rp default_tol n code neig)); auto. }
  { apply G; try reflexivity. eapply init_legal; eauto. }
  exists F. intros fuel Hf. rewrite (full_large N rp default_tol aupd eupd junk junk_state proj re im modulus neg lt sorter junkc eigE fuel A n) by (auto; lia). apply HF. auto.
Qed.

Theorem C73_map_eigenpairs : forall f wanted a n t code neig vectors conv,
  operator_is zero f n (app N n a) -> 4 < n -> 0 < neig -> neig < n -> arpack_code rp t = Some code ->
  (forall p, legal rp p -> p_n p = n -> p_which p = code -> p_nev p = neig -> arpack_good N aupd eupd wanted p a) ->
  exists F, forall fuel, F <= fuel -> found N (wanted code) a n neig vectors conv (domap fuel f n (eigtype_int t) neig vectors conv).
Proof.
  intros f wanted a n t code neig vectors conv HO H4 H0 H1 Hc G.
  destruct (good_found N rp default_tol aupd eupd junk junk_state wanted n t code neig vectors conv (map_step f) a Hc H0 H1) as (F & HF).
  { apply (map_answers N (init_problem rp default_tol n code neig)); auto. apply app_local. }
  { apply G; try reflexivity. eapply init_legal; eauto. }
  exists F. intros fuel Hf. rewrite (domap_large N rp default_tol aupd eupd junk junk_state proj to_c re im modulus neg lt sorter junkc eigC fuel f n) by (auto; lia). apply HF. auto.
Qed.

Theorem C73_sparse_eigenpairs : forall jd (A : sparse E) wanted n t code neig vectors conv, numlaws N ->
  wf_sparse A -> srows A = n -> scols A = n -> 4 < n -> 0 < neig -> neig < n -> arpack_code rp t = Some code ->
  (forall p, legal rp p -> p_n p = n -> p_which p = code -> p_nev p = neig -> arpack_good N aupd eupd wanted p (S_Sparse.entry zero A)) ->
  exists F, forall fuel, F <= fuel -> found N (wanted code) (S_Sparse.entry zero A) n neig vectors conv (dosparse jd fuel A (eigtype_int t) neig vectors conv).
Proof.
  intros jd A wanted n t code neig vectors conv L W Hr Hc' H4 H0 H1 Hc G. unfold eigs_sparse. rewrite Hc'.
  apply C73_map_eigenpairs; auto. apply sparse_operator; auto.
Qed.

(* What is refused: matrices that are not square; no eigenvalues, or more than
   there are; all of them if there are more than four; for real problems the
   order by imaginary parts, if there are more than four. *)
Theorem C73_rejects : forall fuel (A : tensor E) t neig vectors conv,
  ((forall n, dims A <> [n; n]) \/
   (exists n, dims A = [n; n] /\ (n < neig \/ neig = 0 \/ (4 < n /\ (neig = n \/ arpack_code rp t = None))))) ->
  full fuel A (eigtype_int t) neig vectors conv = Abort.
Proof.
  intros fuel A t neig vectors conv H. unfold eigs_full. destruct (dims A) as [|m [|n ds]] eqn:D; try (unfold dimension; rewrite D; reflexivity).
  rewrite (dimension_ok A [m] n ds 1 D eq_refl : dimension A 1 = Ok n), (dimension_ok A [] m (n :: ds) 0 D eq_refl : dimension A 0 = Ok m). cbn [bind].
  destruct ds as [|p ds]; [|reflexivity]. cbn [List.length Nat.eqb assert_ bind].
  destruct (Nat.eqb_spec m n) as [->|]; [|reflexivity]. cbn [assert_ bind].
  destruct H as [H|(n' & En & H)]; [exfalso; apply (H n); reflexivity|]. injection En as <-.
  destruct (Nat.ltb_spec n neig); [reflexivity|]. destruct (Nat.eqb_spec neig 0); [reflexivity|]. cbn [orb negb assert_ bind].
  destruct H as [H|[H|(H4 & H)]]; [lia..|]. replace (n <=? 4) with false by lia. unfold eigs_iterative, arpack_new. destruct (arpack_code rp t) as [code|] eqn:Hc.
  - destruct H as [H|H]; [|discriminate]. destruct (code_read rp t code Hc) as (C1 & C2 & C3). rewrite C1. cbn [assert_ bind]. rewrite C2. cbn [assert_ bind]. rewrite C3. cbn [bind].
    replace (n - 1 <? neig) with true by lia. rewrite Bool.orb_true_r. reflexivity.
  - destruct rp, t; try discriminate; reflexivity.
Qed.
Theorem C73_map_rejects : forall fuel f n t neig vectors conv,
  n < neig \/ neig = 0 \/ (4 < n /\ (neig = n \/ arpack_code rp t = None)) ->
  domap fuel f n (eigtype_int t) neig vectors conv = Abort.
Proof.
  intros fuel f n t neig vectors conv H. unfold do_eigs.
  destruct (Nat.ltb_spec n neig); [reflexivity|]. destruct (Nat.eqb_spec neig 0); [reflexivity|]. cbn [orb negb assert_ bind].
  destruct H as [H|[H|(H4 & H)]]; [lia..|]. replace (n <=? 4) with false by lia. unfold eigs_iterative, arpack_new. destruct (arpack_code rp t) as [code|] eqn:Hc.
  - destruct H as [H|H]; [|discriminate]. destruct (code_read rp t code Hc) as (C1 & C2 & C3). rewrite C1. cbn [assert_ bind]. rewrite C2. cbn [assert_ bind]. rewrite C3. cbn [bind].
    replace (n - 1 <? neig) with true by lia. rewrite Bool.orb_true_r. reflexivity.
  - destruct rp, t; try discriminate; reflexivity.
Qed.

(* An integer that stands for no order is not always refused: 6 passes the check
   and is used to read beyond the table; with up to four rows so does any. *)
Theorem C73_selector_refuted : forall fuel (A : tensor E) n neig vectors conv,
  dims A = [n; n] -> 0 < neig -> neig <= n ->
  (4 < n -> full fuel A 6%Z neig vectors conv = UB) /\
  (n <= 4 -> forall t r, (t < 0 \/ 5 < t)%Z -> eigE A false (match vectors with Some _ => true | None => false end) = Ok r ->
     full fuel A t neig vectors conv = UB).
Proof.
  intros fuel A n neig vectors conv D H0 H1. split; intros H4.
  - rewrite (full_large N rp default_tol aupd eupd junk junk_state proj re im modulus neg lt sorter junkc eigE fuel A n) by auto.
    unfold eigs_iterative, arpack_new, whichs. destruct rp; reflexivity.
  - intros t r Ht He. unfold eigs_full. rewrite (dimension_ok A [n] n [] 1 D eq_refl : dimension A 1 = Ok n), (dimension_ok A [] n [n] 0 D eq_refl : dimension A 0 = Ok n). cbn [bind].
    rewrite D. cbn [List.length Nat.eqb assert_ bind]. rewrite Nat.eqb_refl. cbn [assert_ bind].
    replace (n <? neig) with false by lia. replace (neig =? 0) with false by lia. cbn [orb negb assert_ bind]. replace (n <=? 4) with true by lia.
    unfold eigtype_of. do 6 (match goal with |- context [(t =? ?k)%Z] => replace (t =? k)%Z with false by lia end). rewrite He. reflexivity.
Qed.

(* A map whose result is shorter than its argument is not refused: as soon as the
   library asks for a product, elements that do not exist are read. *)
Theorem C73_short_map_refuted : forall f n t code neig vectors conv,
  4 < n -> 0 < neig -> neig < n -> arpack_code rp t = Some code ->
  (forall x, dims x = [n] -> exists y, f x = Ok y /\ List.length (data y) < n) ->
  (forall p s, p_n p = n -> io_ido s = 0%Z -> asks (aupd p s) /\ exists x y, blocks_ok n (aupd p s) x y) ->
  forall fuel, domap (Datatypes.S fuel) f n (eigtype_int t) neig vectors conv = UB.
Proof.
  intros f n t code neig vectors conv H4 H0 H1 Hc Hf Hl fuel.
  rewrite (domap_large N rp default_tol aupd eupd junk junk_state proj to_c re im modulus neg lt sorter junkc eigC _ f n) by (auto; lia).
  unfold eigs_iterative. rewrite (arpack_new_ok rp default_tol junk junk_state n t code neig) by auto. cbn [bind].
  rewrite (start_ok rp default_tol junk junk_state n code neig vectors). cbn [bind drive].
  set (p := init_problem rp default_tol n code neig). set (s := init_io junk junk_state n vectors).
  destruct (Hl p s eq_refl) as (Ha & x & y & B). { unfold s, init_io. destruct vectors as [v|]; [destruct (n <=? List.length (data v))|]; reflexivity. }
  unfold update. cbn [ob_status ob_problem ob_io status_lt status_int Nat.ltb Nat.leb].
  replace (io_ido (aupd p s) =? 99)%Z with false by (destruct Ha as [Ha|Ha]; rewrite Ha; reflexivity).
  replace (negb (io_ido (aupd p s) =? 1) && negb (io_ido (aupd p s) =? -1))%Z with false by (destruct Ha as [Ha|Ha]; rewrite Ha; reflexivity).
  cbn [bind ob_status status_lt status_int Nat.ltb Nat.leb]. destruct B as (Ex & Ey & Lx & Ly & _).
  unfold map_step, get_x, set_y, get_x_vector, get_y_vector. cbn [ob_status ob_io ob_problem bind].
  rewrite Ex, Ey. replace (Z.of_nat x + 1 - 1)%Z with (Z.of_nat x) by lia. replace (Z.of_nat y + 1 - 1)%Z with (Z.of_nat y) by lia.
  rewrite (read_block_ok zero) by auto. cbn [bind].
  match goal with |- context [f ?v] => destruct (Hf v eq_refl) as (q & Eq & Lq) end.
  rewrite Eq. cbn [bind]. rewrite write_block_short by auto. reflexivity.
Qed.
End Eigs.
Print Assumptions C73_dense.
Print Assumptions C73_map.
Print Assumptions C73_sparse.
Print Assumptions C73_eigenpairs.
Print Assumptions C73_map_eigenpairs.
Print Assumptions C73_sparse_eigenpairs.
Print Assumptions C73_rejects.
Print Assumptions C73_map_rejects.
Print Assumptions C73_selector_refuted.
Print Assumptions C73_short_map_refuted.

Section Small.
Context {E R C S T : Type} (N : numops E) (NC : numops C) (rp : bool) (default_tol : T).
Context (aupd : problem T -> io E S -> io E S).
Context (eupd : problem T -> bool -> io E S -> list E -> list E -> Z * list E * list E).
Context (junk : nat -> E) (junk_state : S).
Context (proj : C -> E) (to_c : E -> C) (re im modulus : C -> R) (neg : R -> R) (lt : R -> R -> bool).
Context (Hlt : strict_total lt) (Hneg : forall x y, lt (neg x) (neg y) = lt y x).
Context (sorter : (nat -> nat -> bool) -> list nat -> list nat) (Hs : @is_std_sort nat sorter) (junkc : nat -> C).

(* Up to four rows the matrix of the map, of entries f(e_k)_i, is given to LAPACK.
   As for matrices (C68), the columns are left eigenvectors, and only a part
   [proj] of values and vectors is returned: the real part for real maps. *)
Theorem C73_small_map_partial : forall zgeev f n g t neig vectors conv,
  operator_is (nzero N) f n g -> local_op n g -> 0 < neig -> neig <= n -> n <= 4 ->
  let a := fun i k => to_c (g (fun j => if j =? k then none_ N else nzero N) i) in
  let want := match vectors with Some _ => true | None => false end in
  (forall d, (forall i k, i < n -> k < n -> nth_error d (i + n * k) = Some (a i k)) -> zgeev_good NC zgeev want false n d) ->
  exists (w : nat -> C) sel u uv,
    (forall k, k < n -> eigenvalue NC a n (w k)) /\
    first_ones (eig_before re im modulus lt t) n neig w sel /\
    wf u /\ dims u = [neig] /\ (forall x k, nth_error sel x = Some k -> elt u [x] = Some (proj (w k))) /\
    match uv with
    | Some uv => want = true /\ wf uv /\ dims uv = [n; neig] /\
        forall x k, nth_error sel x = Some k -> exists v, left_vector NC a n (w k) v /\ forall i, i < n -> elt uv [i; x] = Some (proj (v i))
    | None => want = false
    end /\
    exists F, forall fuel, F <= fuel ->
      do_eigs N rp default_tol aupd eupd junk junk_state proj to_c re im modulus neg lt sorter junkc (eig_z zgeev) fuel f n (eigtype_int t) neig vectors conv
      = Ok (u, uv, if conv then Some true else None).
Proof. intros zgeev f n g t neig vectors conv HO HLo H0 H1 H4. apply map_small_ok; auto. Qed.
End Small.
Print Assumptions C73_small_map_partial.

(* Whatever is done with the object, and in whatever order: every call to the
   library is one that it expects, and none is made after it has ended; the
   object says that it runs when the library asks for a product, and that it has
   finished when the library has ended well, and never otherwise. *)
Theorem C73_protocol : forall E S T rp default_tol (aupd : problem T -> io E S -> io E S) junk junk_state n t nev o cs o1 o2,
  arpack_new rp default_tol junk junk_state n t nev = Ok o -> do_ops aupd o cs = Ok o1 -> update aupd o1 = Ok o2 ->
  (ob_status o1 = Initialized \/ ob_status o1 = Running) /\ expected aupd (ob_problem o1) (ob_io o1) /\ ob_io o2 = aupd (ob_problem o1) (ob_io o1) /\
     (ob_status o2 = Running <-> asks (ob_io o2)) /\ (ob_status o2 = Finished <-> io_ido (ob_io o2) = 99%Z /\ io_info (ob_io o2) = 0%Z)
  \/ ~ (ob_status o1 = Initialized \/ ob_status o1 = Running) /\ ob_io o2 = ob_io o1 /\ ob_status o2 = Error.
Proof.
  intros E S T rp default_tol aupd junk junk_state n t nev o cs o1 o2 H1 H2 H3. destruct (new_proto rp default_tol aupd junk junk_state n t nev o H1) as [Hs P].
  destruct (do_ops_proto aupd cs o o1) as (_ & U & P'); auto; [rewrite Hs; discriminate..|]. apply (update_proto aupd o1 o2 U P' H3).
Qed.
(* Vectors are exchanged only while it runs, parameters change only before. *)
Theorem C73_protocol_refuses : forall E S T (o : @object E S T) y v tol m,
  (ob_status o <> Running -> get_x o = Abort /\ set_y o y = Abort) /\
  (ob_status o <> Uninitialized -> ob_status o <> Initialized -> set_start_vector o v = Abort /\ set_tolerance o tol = Abort /\ set_maxiter o m = Abort).
Proof.
  intros. split.
  - intros H. unfold get_x, set_y, get_x_vector, get_y_vector. destruct (ob_status o); try contradiction; split; reflexivity.
  - intros H1 H2. unfold set_start_vector, set_tolerance, set_maxiter. destruct (ob_status o); try contradiction; repeat split; reflexivity.
Qed.
Print Assumptions C73_protocol.
Print Assumptions C73_protocol_refuses.

(* A library that asks for the first two columns of the matrix.  If they do not
   look like those of a symmetric matrix it returns nonsense; otherwise it gives
   up. *)
Definition basis (k n : nat) : list Z := map (fun i => if i =? k then 1%Z else 0%Z) (seq 0 (3 * n)).
Definition sly_aupd (p : problem Z) (s : io Z (nat * Z)) : io Z (nat * Z) :=
  let n := p_n p in
  let y1 := nth (n + 1) (io_workd s) 0%Z in
  let y0 := nth n (io_workd s) 0%Z in
  if (io_ido s =? 0)%Z then mkIO (1, 0%Z) 1%Z 0%Z (io_resid s) (basis 0 n) 1%Z (Z.of_nat n + 1)%Z
  else match fst (io_state s) with
       | 1 => mkIO (2, y1) 1%Z 0%Z (io_resid s) (basis 1 n) 1%Z (Z.of_nat n + 1)%Z
       | _ => mkIO (io_state s) 99%Z (if (snd (io_state s) =? y0)%Z then 1 else 0)%Z (io_resid s) (io_workd s) 0%Z 0%Z
       end.
Definition sly_eupd (p : problem Z) (want : bool) (s : io Z (nat * Z)) (room roomz : list Z) : Z * list Z * list Z :=
  (0, map (fun _ => 7) room, map (fun _ => 0) roomz)%Z.

Lemma basis_app n m a k w : k < n -> m < n -> nth (n + m) w 0%Z = app Znum n a (fun j => nth (0 + j) (basis k n) 0%Z) m -> nth (n + m) w 0%Z = a m k.
Proof.
  intros Hk Hm H. rewrite H. unfold S_Cgs.app. rewrite (L_BlockSvd.sum_one Znum Znum_laws n k).
  - unfold basis. rewrite nth_map_seq0 by lia. cbn [Nat.add]. rewrite Nat.eqb_refl. cbn. lia.
  - auto.
  - intros j Hj Hjk. unfold basis. cbn [Nat.add]. rewrite nth_map_seq0 by lia. replace (j =? k) with false by lia. cbn. lia.
Qed.

Lemma sly_good wanted p a : legal true p -> (forall i k, a i k = a k i) -> arpack_good Znum sly_aupd sly_eupd wanted p a.
Proof.
  intros (L1 & L2 & L3 & _) Sy s0 H0 Hw. set (n := p_n p) in *. assert (Hn : 2 <= n) by (unfold n; lia).
  set (r1 := sly_aupd p s0).
  assert (E1 : r1 = mkIO (1, 0%Z) 1%Z 0%Z (io_resid s0) (basis 0 n) 1%Z (Z.of_nat n + 1)%Z) by (unfold r1, sly_aupd; rewrite H0; reflexivity).
  assert (Lb : forall k, List.length (basis k n) = 3 * n) by (intros k; unfold basis; rewrite map_length, seq_length; reflexivity).
  assert (B1 : blocks_ok n r1 0 n) by (rewrite E1; unfold blocks_ok; cbn [io_x io_y io_workd]; rewrite Lb; lia).
  destruct (answered_total 0%Z n (app Znum n a) r1 0 n B1) as (s1 & A1). pose proof A1 as (x1 & y1 & w1 & (X1 & Y1 & _) & Lw1 & W1 & _ & Es1).
  rewrite E1 in X1, Y1. cbn [io_x io_y] in X1, Y1. assert (x1 = 0) by lia. assert (y1 = n) by lia. subst x1 y1.
  set (r2 := sly_aupd p s1).
  assert (E2 : r2 = mkIO (2, a 1 0) 1%Z 0%Z (io_resid s0) (basis 1 n) 1%Z (Z.of_nat n + 1)%Z).
  { unfold r2, sly_aupd. rewrite Es1, E1. cbn [io_ido io_state io_workd io_resid fst Z.eqb]. fold n. do 2 f_equal.
    apply (basis_app n 1 a 0 w1); [lia..|]. erewrite nth_error_nth; [|apply W1; lia]. rewrite E1. reflexivity. }
  assert (B2 : blocks_ok n r2 0 n) by (rewrite E2; unfold blocks_ok; cbn [io_x io_y io_workd]; rewrite Lb; lia).
  destruct (answered_total 0%Z n (app Znum n a) r2 0 n B2) as (s2 & A2). pose proof A2 as (x2 & y2 & w2 & (X2 & Y2 & _) & Lw2 & W2 & _ & Es2).
  rewrite E2 in X2, Y2. cbn [io_x io_y] in X2, Y2. assert (x2 = 0) by lia. assert (y2 = n) by lia. subst x2 y2.
  assert (E3 : io_ido (sly_aupd p s2) = 99%Z /\ io_info (sly_aupd p s2) = 1%Z).
  { unfold sly_aupd. rewrite Es2, E2. cbn [io_ido io_state io_workd io_resid fst snd Z.eqb io_info]. fold n. split; [reflexivity|].
    replace (nth n w2 0%Z) with (a 0 1). { rewrite (Sy 0 1), Z.eqb_refl. reflexivity. }
    symmetry. replace n with (n + 0) at 1 by lia. apply (basis_app n 0 a 1 w2); [lia..|]. erewrite nth_error_nth; [|apply W2; lia]. rewrite E2. reflexivity. }
  exists (sly_aupd p s2). split; [|split; [apply E3|split; [lia|lia]]].
  eapply dialogue_ask; [fold r1; rewrite E1; left; reflexivity|exact A1|].
  eapply dialogue_ask; [fold r2; rewrite E2; left; reflexivity|exact A2|].
  apply dialogue_end. unfold asks. lia.
Qed.

Notation Zfull aupd eupd junk junk_state dgeev := (eigs_full Znum true 0%Z aupd eupd junk junk_state fst fst snd (fun x => (fst x * fst x + snd x * snd x)%Z) Z.opp Z.ltb insertion_sort
  (fun _ => (0, 0)%Z) dgeev).

(* Real matrices go to the part of ARPACK for symmetric matrices, without a
   check: of a matrix that is not symmetric what is returned need not be an
   eigenvalue, although a library that keeps its promises says that it converged. *)
Theorem C73_not_symmetric_refuted :
  exists (aupd : problem Z -> io Z (nat * Z) -> io Z (nat * Z)) eupd (A : tensor Z) u,
    (forall wanted p a, legal true p -> (forall i k, a i k = a k i) -> arpack_good Znum aupd eupd wanted p a) /\
    wf A /\ dims A = [5; 5] /\ dims u = [1] /\
    (forall junk junk_state dgeev fuel, 100 <= fuel -> Zfull aupd eupd junk junk_state dgeev fuel A (eigtype_int LargestMagnitude) 1 None true = Ok (u, None, Some true)) /\
    ~ eigenvalue Znum (fun i k => val Znum A [i; k]) 5 (val Znum u [0]).
Proof.
  exists sly_aupd, sly_eupd, (mkT [5; 5] [0;0;0;0;0; 1;0;0;0;0; 0;0;0;0;0; 0;0;0;0;0; 0;0;0;0;0]%Z), (mkT [1] [7]%Z).
  split; [intros; apply sly_good; auto|]. split; [reflexivity|]. split; [reflexivity|]. split; [reflexivity|]. split.
  - intros junk junk_state dgeev fuel Hf. do 100 (destruct fuel as [|fuel]; [lia|]). reflexivity.
  - intros (x & (q & Hq & Hx) & H). apply Hx.
    pose proof (H 0 ltac:(lia)) as Ha. pose proof (H 1 ltac:(lia)) as Hb. pose proof (H 2 ltac:(lia)) as Hc. pose proof (H 3 ltac:(lia)) as Hd. pose proof (H 4 ltac:(lia)) as He.
    cbn [sum_n] in Ha, Hb, Hc, Hd, He. cbn -[Z.mul Z.add] in Ha, Hb, Hc, Hd, He. cbn [nzero Znum].
    destruct q as [|[|[|[|[|q]]]]]; lia.
Qed.
Print Assumptions C73_not_symmetric_refuted.

(* A library for matrices with the first basis vector as an eigenvector. *)
Definition toy_aupd (p : problem Z) (s : io Z Z) : io Z Z :=
  if (io_ido s =? 0)%Z then mkIO 0%Z (-1)%Z 0%Z (io_resid s) (basis 0 (p_n p)) 1%Z (Z.of_nat (p_n p) + 1)%Z
  else mkIO (nth (p_n p) (io_workd s) 0%Z) 99%Z 0%Z (io_resid s) (io_workd s) 0%Z 0%Z.
Definition toy_eupd (p : problem Z) (want : bool) (s : io Z Z) (room roomz : list Z) : Z * list Z * list Z :=
  (0%Z, map (fun i => if i =? 0 then io_state s else 0%Z) (seq 0 (List.length room)),
   map (fun i => if i =? 0 then 1%Z else 0%Z) (seq 0 (List.length roomz))).
Definition diag5 : tensor Z := mkT [5; 5] [3;0;0;0;0; 0;1;0;0;0; 0;0;1;0;0; 0;0;0;1;0; 0;0;0;0;1]%Z.
Definition largest3 (code : string) (l : list Z) : Prop := code = "LM"%string -> l = [3]%Z.

Lemma toy_good p : legal true p -> p_n p = 5 -> p_nev p = 1 -> arpack_good Znum toy_aupd toy_eupd largest3 p (fun i k => val Znum diag5 [i; k]).
Proof.
  intros _ Hn Hv s0 H0 Hw. rewrite Hn, Hv. rewrite Hn in Hw. set (a := fun i k => val Znum diag5 [i; k]). set (r1 := toy_aupd p s0).
  assert (E1 : r1 = mkIO 0%Z (-1)%Z 0%Z (io_resid s0) (basis 0 5) 1%Z 6%Z) by (unfold r1, toy_aupd; rewrite H0, Hn; reflexivity).
  assert (B1 : blocks_ok 5 r1 0 5) by (rewrite E1; unfold blocks_ok; cbn; lia).
  destruct (answered_total 0%Z 5 (app Znum 5 a) r1 0 5 B1) as (s1 & A1). pose proof A1 as (x1 & y1 & w1 & (X1 & Y1 & _) & Lw1 & W1 & _ & Es1).
  rewrite E1 in X1, Y1. cbn [io_x io_y] in X1, Y1. assert (x1 = 0) by lia. assert (y1 = 5) by lia. subst x1 y1.
  assert (E2 : toy_aupd p s1 = mkIO 3%Z 99%Z 0%Z (io_resid s0) w1 0%Z 0%Z).
  { unfold toy_aupd. rewrite Es1, E1, Hn. cbn [io_ido io_state io_workd io_resid Z.eqb]. f_equal. erewrite nth_error_nth; [|apply (W1 0); lia]. rewrite E1. vm_compute. reflexivity. }
  exists (toy_aupd p s1). split; [|rewrite E2; split; [reflexivity|split; [cbn; lia|]]].
  { eapply dialogue_ask; [fold r1; rewrite E1; right; reflexivity|exact A1|]. apply dialogue_end. rewrite E2. unfold asks. cbn. lia. }
  intros _ want room roomz Lr Lz. unfold toy_eupd. rewrite Lr, Lz. cbn [io_state].
  exists [3; 0]%Z, (if want then [1; 0; 0; 0; 0]%Z else []). split; [destruct want; reflexivity|]. split; [reflexivity|]. split; [intros ->; reflexivity|]. split; [intros _; reflexivity|].
  assert (RV : right_vector Znum a 5 3%Z (fun i => nth i [1; 0; 0; 0; 0]%Z 0%Z)).
  { split; [exists 0; split; [lia|discriminate]|]. intros i Hi. do 5 (destruct i as [|i]; [vm_compute; reflexivity|]). lia. }
  intros [|k] Hk; [|lia]. split; [exists (fun i => nth i [1; 0; 0; 0; 0]%Z 0%Z); exact RV|]. intros ->.
  refine (vector_ext Znum a 5 _ _ _ _ RV). intros i Hi. rewrite Nat.mul_0_r, Nat.add_0_r. reflexivity.
Qed.

Notation Zsparse aupd eupd junk junk_state zgeev := (eigs_sparse Znum true 0%Z aupd eupd junk junk_state fst (fun x => (x, 0%Z)) fst snd (fun x => (fst x * fst x + snd x * snd x)%Z) Z.opp Z.ltb insertion_sort
  (fun _ => (0, 0)%Z) zgeev).

(* the hypotheses of the theorems are met *)
Example C73_nonvacuous :
  wf diag5 /\ arpack_code true LargestMagnitude = Some "LM"%string /\
  (forall p, legal true p -> p_n p = 5 -> p_which p = "LM"%string -> p_nev p = 1 -> arpack_good Znum toy_aupd toy_eupd largest3 p (fun i k => val Znum diag5 [i; k])) /\
  Zfull toy_aupd toy_eupd (fun _ => 8%Z) 0%Z (fun _ _ _ => UB) 100 diag5 0%Z 1 (Some (mkT [0] [])) true = Ok (mkT [1] [3]%Z, Some (mkT [5; 1] [1; 0; 0; 0; 0]%Z), Some true) /\
  (forall p s, p_n p = 5 -> io_ido s = 0%Z -> asks (toy_aupd p s) /\ exists x y, blocks_ok 5 (toy_aupd p s) x y).
Proof.
  split; [reflexivity|]. split; [reflexivity|]. split; [intros; apply toy_good; auto|]. split; [vm_compute; reflexivity|].
  intros p s Hp H. unfold toy_aupd. rewrite H, Hp. split; [right; reflexivity|]. exists 0, 5. unfold blocks_ok. cbn. lia.
Qed.

(* A sparse matrix with more rows than columns is not refused: what is returned
   belongs to its first rows. *)
Theorem C73_tall_refuted :
  exists (A : sparse Z) u, wf_sparse A /\ srows A = 6 /\ scols A = 5 /\
    forall junk jd junk_state zgeev fuel, 100 <= fuel ->
      Zsparse toy_aupd toy_eupd junk junk_state zgeev jd fuel A (eigtype_int LargestMagnitude) 1 None true = Ok (u, None, Some true).
Proof.
  exists (mkS 6 5 [0; 1; 1; 1; 1; 1; 2] [0; 0] [3; 9]%Z), (mkT [1] [3]%Z).
  split; [|split; [reflexivity|split; [reflexivity|]]].
  - split; cbn [row_start column sdata srows scols]; try reflexivity.
    + intros i a b. do 7 (destruct i as [|i]; [intros Ha Hb; cbn in Ha, Hb; congruence || (injection Ha as <-; injection Hb as <-; lia)|]). destruct i; discriminate.
    + intros k c. do 2 (destruct k as [|k]; [intros H; injection H as <-; lia|]). destruct k; discriminate.
    + intros i a b k c c'. do 7 (destruct i as [|i]; [intros Ha Hb; cbn in Ha, Hb; try congruence; try (injection Ha as <-; injection Hb as <-; lia)|]). destruct i; discriminate.
  - intros junk jd junk_state zgeev fuel Hf. do 100 (destruct fuel as [|fuel]; [lia|]). reflexivity.
Qed.
Print Assumptions C73_tall_refuted.

(* the map (x, y) -> (2 x, y) *)
Definition twice (t : tensor Z) : outcome (tensor Z) := Ok (mkT (dims t) (map (fun i => nth i (data t) 0 * (if Nat.eqb i 0 then 2 else 1))%Z (seq 0 (List.length (data t))))).
Definition twice_geev (wantL wantR : bool) (n : nat) (d : list (Z * Z)) : list (Z * Z) * list (Z * Z) * list (Z * Z) :=
  ([(2, 0); (1, 0)], if wantL then [(1, 0); (0, 0); (0, 0); (1, 0)] else [], [])%Z.
Example C73_small_nonvacuous :
  let g := fun (v : nat -> Z) i => (v i * (if Nat.eqb i 0 then 2 else 1))%Z in
  operator_is 0%Z twice 2 g /\ local_op 2 g /\
  forall d, (forall i k, i < 2 -> k < 2 -> nth_error d (i + 2 * k) = Some (g (fun j => if Nat.eqb j k then 1%Z else 0%Z) i, 0%Z)) -> zgeev_good Gnum twice_geev true false 2 d.
Proof.
  cbv zeta. split; [|split].
  - intros t Wt Dt. exists (mkT [2] (map (fun i => nth i (data t) 0 * (if Nat.eqb i 0 then 2 else 1))%Z (seq 0 2))).
    assert (Lt : List.length (data t) = 2) by (rewrite Wt, Dt; reflexivity). unfold twice. rewrite Dt, Lt. split; [reflexivity|]. split; [reflexivity|]. split; [reflexivity|].
    intros i Hi. cbn [data]. rewrite nth_map_seq0 by auto. reflexivity.
  - intros u v H i Hi. rewrite H by auto. reflexivity.
  - intros d Hd. assert (E : forall i k, i < 2 -> k < 2 -> nth (i + 2 * k) d (0, 0)%Z = ((if Nat.eqb i k then 1 else 0) * (if Nat.eqb i 0 then 2 else 1), 0)%Z).
    { intros i k Hi Hk. apply nth_error_nth. apply Hd; auto. }
    pose proof (E 0 0 ltac:(lia) ltac:(lia)) as E00. pose proof (E 0 1 ltac:(lia) ltac:(lia)) as E01. pose proof (E 1 0 ltac:(lia) ltac:(lia)) as E10. pose proof (E 1 1 ltac:(lia) ltac:(lia)) as E11.
    cbn [Nat.add Nat.mul Nat.eqb] in E00, E01, E10, E11.
    unfold zgeev_good, twice_geev. cbv zeta. split; [reflexivity|]. split; [reflexivity|]. split; [discriminate|].
    intros i Hi. destruct i as [|[|i]]; [| |lia]; (split; [|split; [discriminate|intros _]]);
      [exists (fun i => if Nat.eqb i 0 then (1, 0) else (0, 0))%Z|idtac|exists (fun i => if Nat.eqb i 0 then (0, 0) else (1, 0))%Z|idtac].
    1,2: split; [exists 0; split; [lia|discriminate]|]; intros j Hj; destruct j as [|[|j]]; [| |lia]; cbn [sum_n Nat.add Nat.mul]; change (nzero Gnum) with (0, 0)%Z; rewrite ?E00, ?E01, ?E10, ?E11; reflexivity.
    1,2: split; [exists 1; split; [lia|discriminate]|]; intros j Hj; destruct j as [|[|j]]; [| |lia]; cbn [sum_n Nat.add Nat.mul]; change (nzero Gnum) with (0, 0)%Z; rewrite ?E00, ?E01, ?E10, ?E11; reflexivity.
Qed.
