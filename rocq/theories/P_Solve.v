(* C65: solve; C66: solve_with_svd. *)
From Coq Require Import QArith Qcanon.
From Verif Require Import Base Spec S_Fold S_Reduce M_Tensor M_Solve S_Solve M_BlockSvd S_BlockSvd S_Expm L_Lin L_Fold L_Solve.
Local Open Scope nat_scope.

(* solve(A, B) satisfies A X = B for every right-hand side in B; it aborts only
   if A is singular *)
Theorem C65_solve : forall A (N : numops A) gesv (a b : tensor A) n rest,
  wf a -> wf b -> dims a = [n; n] -> dims b = n :: rest -> 0 < n ->
  gesv_good N gesv n (prod rest) (data a) (data b) ->
  (exists x, solve gesv a b = Ok x /\ wf x /\ dims x = dims b /\
     forall i w, i < n -> valid rest w -> mulv N a n (at_rest N x w) i = at_rest N b w i) \/
  (solve gesv a b = Abort /\ singular N a n).
Proof. intros A N gesv a b n rest. apply solve_ok. Qed.
Print Assumptions C65_solve.

Theorem C65_rejects : forall A gesv (a b : tensor A) r c rs k rest,
  dims a = r :: c :: rs -> dims b = k :: rest -> r <> c \/ r <> k -> solve gesv a b = Abort.
Proof.
  intros A gesv a b r c rs k rest Da Db H. unfold solve.
  rewrite (dimension_ok a [] r (c :: rs) 0 Da eq_refl : dimension a 0 = Ok r), (dimension_ok a [r] c rs 1 Da eq_refl : dimension a 1 = Ok c),
    (dimension_ok b [] k rest 0 Db eq_refl : dimension b 0 = Ok k). cbn [bind].
  destruct (Nat.eqb_spec r c); cbn [bind assert_]; auto. destruct (Nat.eqb_spec r k); cbn [bind assert_]; auto. lia.
Qed.
Print Assumptions C65_rejects.

(* an empty system divides by zero *)
Theorem C65_empty_refuted : forall A gesv (a b : tensor A) rest,
  dims a = [0; 0] -> dims b = 0 :: rest -> solve gesv a b = UB.
Proof.
  intros A gesv a b rest Da Db. unfold solve.
  rewrite (dimension_ok a [] 0 [0] 0 Da eq_refl : dimension a 0 = Ok 0), (dimension_ok a [0] 0 [] 1 Da eq_refl : dimension a 1 = Ok 0),
    (dimension_ok b [] 0 rest 0 Db eq_refl : dimension b 0 = Ok 0). reflexivity.
Qed.
Print Assumptions C65_empty_refuted.

(* A is not checked to be a matrix: only the first n*n of its elements matter *)
Theorem C65_rank_refuted : forall A (gesv : nat -> nat -> list A -> nat -> list A -> nat -> list A * Z) (a b : tensor A) n rs rest,
  (forall n nrhs p q b, firstn (n * n) p = firstn (n * n) q -> gesv n nrhs p n b n = gesv n nrhs q n b n) ->
  wf a -> dims a = n :: n :: rs -> dims b = n :: rest -> 0 < n -> 0 < prod rs ->
  solve gesv a b = solve gesv (mkT [n; n] (firstn (n * n) (data a))) b.
Proof.
  intros A gesv a b n rs rest Hg Wa Da Db Hn Hp. unfold solve.
  rewrite (dimension_ok a [] n (n :: rs) 0 Da eq_refl : dimension a 0 = Ok n), (dimension_ok a [n] n rs 1 Da eq_refl : dimension a 1 = Ok n),
    (dimension_ok b [] n rest 0 Db eq_refl : dimension b 0 = Ok n).
  set (a' := mkT [n; n] _). rewrite (dimension_ok a' [] n [n] 0 eq_refl eq_refl : dimension a' 0 = Ok n), (dimension_ok a' [n] n [] 1 eq_refl eq_refl : dimension a' 1 = Ok n).
  cbn [bind]. rewrite Nat.eqb_refl. cbn [bind assert_]. replace (n =? 0) with false by lia.
  rewrite (Hg n _ (data a) (data a')); auto. cbn [data a']. rewrite firstn_firstn, Nat.min_id. auto.
Qed.
Print Assumptions C65_rank_refuted.

(* 2x + y = 5, x + 3y = 10 and 2x + y = 1, x + 3y = 3 *)
Example C65_nonvacuous :
  let a := mkT [2; 2] [2; 1; 1; 3]%Z in let b := mkT [2; 1; 2] [5; 10; 1; 3]%Z in
  let gesv := fun (_ _ : nat) (_ : list Z) (_ : nat) (_ : list Z) (_ : nat) => ([1; 3; 0; 1]%Z, 0%Z) in
  wf a /\ wf b /\ gesv_good Znum gesv 2 (prod [1; 2]) (data a) (data b) /\
  solve gesv a b = Ok (mkT [2; 1; 2] [1; 3; 0; 1]%Z) /\
  solve gesv (mkT [2; 2; 2] [2; 1; 1; 3; 7; 7; 7; 7]%Z) b = Ok (mkT [2; 1; 2] [1; 3; 0; 1]%Z).
Proof.
  cbv zeta. split; [reflexivity|]. split; [reflexivity|]. split; [|split; reflexivity].
  split; [reflexivity|]. split; [|intros H; elim H; reflexivity].
  intros _ i j Hi Hj. change (prod [1; 2]) with 2 in Hj.
  destruct i as [|[|i]]; [| |lia]; (destruct j as [|[|j]]; [reflexivity|reflexivity|lia]).
Qed.

Section Svd.
Context {A R : Type} (N : numops A) (L : numlaws N) (lt : R -> R -> bool) (inj : R -> A) (rone : R) (rdiv : R -> R -> R) (rzero eps : R).
Context (svd : tensor A -> bool -> outcome (tensor R * tensor A * tensor A)).
Context (jdims : nat -> nat) (junk : nat -> A) (junkr : nat -> R).
(* <= on real numbers *)
Notation le := (fun x y => negb (lt y x)).
Notation solve_with_svd := (solve_with_svd N inj rone rdiv rzero eps le svd jdims junk junkr).
Context (a b : tensor A) (m n r : nat) (rest : list nat) (tol : R) (s : tensor R) (U VT : tensor A).
(* the tolerance that is applied: tol, or the default if it is not positive *)
Notation limit := (if lt rzero tol then tol else eps).
Context (Wb : wf b) (Db : dims b = m :: rest) (Hm : 0 < m) (Hn : 0 < n).
Context (Esvd : svd a true = Ok (s, U, VT)) (Hsvd : is_svd N lt rzero inj a m n true s U VT).
(* r is the number of singular values above the tolerance *)
Context (Hr0 : 0 < r) (Hr : r <= Nat.min m n).
Context (Hkeep : forall k, k < r -> lt limit (rval rzero s k) = true).
Context (Hdrop : forall k, r <= k -> k < Nat.min m n -> lt limit (rval rzero s k) = false).

(* X = V 1/S U* B over the retained singular values *)
Theorem C66_formula : exists x, wf x /\ dims x = n :: rest /\
  (forall j w, j < n -> valid rest w -> elt x (j :: w) = Some (sum_n N r (fun k => nmul N (nconj N (val N VT [k; j]))
     (nmul N (sum_n N m (fun i => nmul N (nconj N (val N U [i; k])) (val N b (i :: w)))) (inj (rdiv rone (rval rzero s k))))))) /\
  exists F, forall fuel, F <= fuel -> solve_with_svd fuel a b tol = Ok x.
Proof.
  destruct Hsvd as ((Ws & Ds & WU & DU & WV & DV) & _).
  assert (El : (if negb (lt rzero tol) then eps else tol) = limit) by (destruct (lt rzero tol); reflexivity).
  apply (solve_svd_ok N L inj rone rdiv rzero eps (fun x y => negb (lt y x)) svd jdims junk junkr a b m n (Nat.min m n) r rest tol s U VT); auto.
  - rewrite El. intros k Hk. rewrite Hkeep by auto. reflexivity.
  - rewrite El. intros H. rewrite Hdrop by (auto; lia). reflexivity.
Qed.

(* With exact reciprocals, and when the discarded singular values are zero:
   X is the least-squares solution, A* A X = A* B, and it is the one of least
   norm, X = A* Z. *)
Context (Hreal : forall x, nconj N (inj x) = inj x).
Context (Hinv : forall k, k < r -> nmul N (inj (rdiv rone (rval rzero s k))) (inj (rval rzero s k)) = none_ N).
Context (Hzero : forall k, r <= k -> k < Nat.min m n -> inj (rval rzero s k) = nzero N).

Theorem C66_pseudoinverse : exists x, wf x /\ dims x = n :: rest /\
  (forall w, valid rest w ->
     (forall j, j < n -> mulv_adj N a m (mulv N a n (at_rest N x w)) j = mulv_adj N a m (at_rest N b w) j) /\
     (exists z, forall j, j < n -> at_rest N x w j = mulv_adj N a m z j)) /\
  exists F, forall fuel, F <= fuel -> solve_with_svd fuel a b tol = Ok x.
Proof.
  destruct C66_formula as (x & Wx & Dx & Ex & F). exists x. repeat (split; [assumption|]). split; [|exact F].
  destruct Hsvd as (_ & Hd & HU & HV & _). intros w V.
  set (u := fun i k => val N U [i; k]). set (v := fun k j => val N VT [k; j]). set (sg := fun k => inj (rval rzero s k)).
  set (t := fun k => inj (rdiv rone (rval rzero s k))). set (al := fun i j => val N a [i; j]).
  assert (Hx : forall j, j < n -> at_rest N x w j = xx N m r u v t (at_rest N b w) j).
  { intros j Hj. unfold at_rest at 1. rewrite (L_Kron.val_some N _ _ _ (Ex j w Hj V)). reflexivity. }
  assert (P1 : forall i j, i < m -> j < n -> sum_n N (Nat.min m n) (fun k => nmul N (nmul N (u i k) (sg k)) (v k j)) = al i j) by exact Hd.
  assert (P2 : forall k, k < Nat.min m n -> nconj N (sg k) = sg k) by (intros; apply Hreal).
  assert (P3 : forall k, r <= k < Nat.min m n -> sg k = nzero N) by (intros k Hk; apply Hzero; lia).
  split.
  - intros j Hj. unfold mulv_adj. refine (eq_trans _ (normal N L m n (Nat.min m n) r al u v sg t Hr P1 HU HV P2 Hinv P3 (at_rest N b w) j Hj)).
    apply sum_ext. intros i Hi. unfold al at 1. f_equal. unfold mulv. apply sum_ext. intros l Hl. rewrite Hx by auto. reflexivity.
  - destruct (minimal N L m n (Nat.min m n) r al u v sg t Hr P1 HU HV P2 Hinv P3 (at_rest N b w)) as (z & Hz).
    exists z. intros j Hj. rewrite Hx by auto. apply Hz. auto.
Qed.

(* and it solves A X = B if anything does *)
Theorem C66_consistent : exists x, wf x /\ dims x = n :: rest /\
  (forall w y, valid rest w -> (forall i, i < m -> mulv N a n y i = at_rest N b w i) ->
     forall i, i < m -> mulv N a n (at_rest N x w) i = at_rest N b w i) /\
  exists F, forall fuel, F <= fuel -> solve_with_svd fuel a b tol = Ok x.
Proof.
  destruct C66_formula as (x & Wx & Dx & Ex & F). exists x. repeat (split; [assumption|]). split; [|exact F].
  destruct Hsvd as (_ & Hd & HU & HV & _). intros w y V Hy i Hi.
  set (u := fun i k => val N U [i; k]). set (v := fun k j => val N VT [k; j]). set (sg := fun k => inj (rval rzero s k)).
  set (t := fun k => inj (rdiv rone (rval rzero s k))). set (al := fun i j => val N a [i; j]).
  assert (Hx : forall j, j < n -> at_rest N x w j = xx N m r u v t (at_rest N b w) j).
  { intros j Hj. unfold at_rest at 1. rewrite (L_Kron.val_some N _ _ _ (Ex j w Hj V)). reflexivity. }
  assert (P1 : forall i j, i < m -> j < n -> sum_n N (Nat.min m n) (fun k => nmul N (nmul N (u i k) (sg k)) (v k j)) = al i j) by exact Hd.
  assert (P2 : forall k, k < Nat.min m n -> nconj N (sg k) = sg k) by (intros; apply Hreal).
  assert (P3 : forall k, r <= k < Nat.min m n -> sg k = nzero N) by (intros k Hk; apply Hzero; lia).
  refine (eq_trans _ (consistent N L m n (Nat.min m n) r al u v sg t Hr P1 HU HV P2 Hinv P3 (at_rest N b w) y Hy i Hi)).
  unfold mulv. apply sum_ext. intros l Hl. rewrite Hx by auto. reflexivity.
Qed.
End Svd.
Print Assumptions C66_formula.
Print Assumptions C66_pseudoinverse.
Print Assumptions C66_consistent.

(* If no singular value is above the tolerance nothing is left to contract, and
   the call aborts: the zero matrix has no least-squares solution here. *)
Theorem C66_zero_matrix_refuted :
  let a := mkT [2; 2] [0; 0; 0; 0]%Z in let b := mkT [2] [3; 4]%Z in
  let svd := fun (_ : tensor Z) (_ : bool) => Ok (mkT [2] [0; 0]%Z, mkT [2; 2] [1; 0; 0; 1]%Z, mkT [2; 2] [1; 0; 0; 1]%Z) in
  is_svd Znum Z.ltb 0%Z (fun x => x) a 2 2 true (mkT [2] [0; 0]%Z) (mkT [2; 2] [1; 0; 0; 1]%Z) (mkT [2; 2] [1; 0; 0; 1]%Z) /\
  forall jdims fuel, 9 <= fuel ->
    solve_with_svd Znum (fun x => x) 1%Z Z.div 0%Z 1%Z (fun x y => negb (y <? x)%Z) svd jdims (fun _ => 9%Z) (fun _ => 9%Z) fuel a b 1%Z = Abort.
Proof.
  cbv zeta. split.
  - repeat split; try (intros k l Hk Hl; cbn in Hk, Hl; destruct k as [|[|k]]; [| |lia]; (destruct l as [|[|l]]; [reflexivity|reflexivity|lia])).
    + intros k Hk; cbn in Hk; destruct k as [|[|k]]; [reflexivity|reflexivity|lia].
    + intros i j x y Hij Hi Hj. destruct j as [|[|j]]; [lia| |destruct j; discriminate]. destruct i as [|i]; [|lia]. injection Hi as <-. injection Hj as <-. reflexivity.
  - intros jd fuel Hf. do 9 (destruct fuel as [|fuel]; [lia|]). reflexivity.
Qed.
Print Assumptions C66_zero_matrix_refuted.

(* the matrix diag(2, 0): rank one, rational numbers *)
Example C66_nonvacuous :
  let q := fun z => Q2Qc (inject_Z z) in
  let a := mkT [2; 2] [q 2; q 0; q 0; q 0]%Z in let b := mkT [2] [q 6; q 4]%Z in
  let s := mkT [2] [q 2; q 0]%Z in let I := mkT [2; 2] [q 1; q 0; q 0; q 1]%Z in
  let svd := fun (_ : tensor Qc) (_ : bool) => Ok (s, I, I) in
  let lt := fun x y : Qc => negb (Qle_bool y x) in
  wf b /\ is_svd Qcnum lt (q 0%Z) (fun x => x) a 2 2 true s I I /\
  lt (q 1%Z) (rval (q 0%Z) s 0) = true /\ lt (q 1%Z) (rval (q 0%Z) s 1) = false /\ rval (q 0%Z) s 1 = nzero Qcnum /\
  nmul Qcnum (Qcdiv (q 1%Z) (rval (q 0%Z) s 0)) (rval (q 0%Z) s 0) = none_ Qcnum /\
  solve_with_svd Qcnum (fun x => x) (q 1%Z) Qcdiv (q 0%Z) (q 1%Z) (fun x y => negb (lt y x)) svd (fun _ => 0) (fun _ => q 9%Z) (fun _ => q 9%Z) 20 a b (q 1%Z)
    = Ok (mkT [2] [q 3; q 0]%Z).
Proof.
  cbv zeta. split; [reflexivity|]. split.
  - repeat split; try (intros k l Hk Hl; cbn in Hk, Hl; destruct k as [|[|k]]; [| |lia]; (destruct l as [|[|l]]; [| |lia]); apply Qc_is_canon; vm_compute; reflexivity).
    + intros k Hk; cbn in Hk; destruct k as [|[|k]]; [reflexivity|reflexivity|lia].
    + intros i j x y Hij Hi Hj. destruct j as [|[|j]]; [lia| |destruct j; discriminate]. destruct i as [|i]; [|lia]. injection Hi as <-. injection Hj as <-. reflexivity.
  - repeat split; try (vm_compute; reflexivity); apply Qc_is_canon; vm_compute; reflexivity.
Qed.
