(* C54: the matrix exponential. *)
From Coq Require Import QArith Qcanon.
From Verif Require Import Base Spec S_Fold S_Expm M_Tensor M_Arith M_Fold M_Reduce M_Expm L_Fold L_Reduce L_Expm.
Local Open Scope nat_scope.

(* The solver is called once, with the denominator N_q(-B) and the numerator
   N_q(B) of the Pade approximant, B = A / 2^j; the result is the 2^j-th power
   of what it returns. *)
Theorem C54_pade :
  forall A R (N : numops A) (K : fieldops A) lt (rzero : R) radd modulus floor_log2 solve jdims junk jaux (a : tensor A) n q nrm e,
    fieldlaws N K -> wf a -> dims a = [n; n] -> 0 < n -> 1 <= q ->
    matrix_norminf lt rzero radd modulus jaux a = Ok nrm -> floor_log2 nrm = Ok e ->
    let j := Z.to_nat (Z.max 0 (e + 1)) in
    let B := fun i l => fdiv K (val N a [i; l]) (fnat K (2 ^ j)) in
    exists P D,
      (wf P /\ dims P = [n; n] /\ forall i l, i < n -> l < n -> elt P [i; l] = Some (pade N K n q B i l)) /\
      (wf D /\ dims D = [n; n] /\ forall i l, i < n -> l < n -> elt D [i; l] = Some (pade N K n q (mneg N K B) i l)) /\
      (forall X, solve D P = Ok X -> wf X -> dims X = [n; n] ->
         exists Y, expm N K lt rzero radd modulus floor_log2 solve jdims junk jaux a q = Ok Y /\ wf Y /\ dims Y = [n; n] /\
           forall i l, i < n -> l < n -> elt Y [i; l] = Some (mpow N n (fun i l => val N X [i; l]) (2 ^ j) i l)) /\
      (solve D P = Abort -> expm N K lt rzero radd modulus floor_log2 solve jdims junk jaux a q = Abort).
Proof.
  intros A R N K lt rzero radd modulus fl solve jd junk jaux a n q nrm e L W Da Hn Hq En Ee j B.
  destruct (rep_div K n junk (fnat K (2 ^ j)) a _ (rep_self N n jd junk a W Da)) as (A0 & E0 & R0).
  destruct (parts_ok N K L n jd junk A0 _ q Hn Hq R0) as (P & D & EP & RP & RD).
  assert (E : expm N K lt rzero radd modulus fl solve jd junk jaux a q = (X <- solve D P ;; for_ j (fun _ X => mmult N jd junk X X) X)).
  { unfold expm. rewrite Da. cbn [length Nat.eqb assert_ bind].
    rewrite (dimension_ok a [n] n [] 1 Da eq_refl : dimension a 1 = Ok n), (dimension_ok a [] n [n] 0 Da eq_refl : dimension a 0 = Ok n). cbn [bind].
    rewrite Nat.eqb_refl. cbn [assert_ bind]. rewrite En. cbn [bind]. rewrite Ee. cbn [bind]. fold j. rewrite E0. cbn [bind]. rewrite EP. reflexivity. }
  exists P, D. split; [exact RP|]. split; [exact RD|]. split.
  - intros X ES WX DX. rewrite E, ES. cbn [bind]. exact (squares_ok N K L n jd junk X _ j Hn (rep_self N n jd junk X WX DX)).
  - intros ES. rewrite E, ES. reflexivity.
Qed.
Print Assumptions C54_pade.

(* With a solver whose answers satisfy their equation: the result Y is X^(2^j)
   where N_q(-B) X = N_q(B). *)
Theorem C54_equation :
  forall A R (N : numops A) (K : fieldops A) lt (rzero : R) radd modulus floor_log2 solve jdims junk jaux (a : tensor A) n q nrm e Y,
    fieldlaws N K -> wf a -> dims a = [n; n] -> 0 < n -> 1 <= q ->
    matrix_norminf lt rzero radd modulus jaux a = Ok nrm -> floor_log2 nrm = Ok e ->
    (forall M b, wf M -> wf b -> dims M = [n; n] -> dims b = [n; n] ->
       solve M b = Abort \/ exists X, solve M b = Ok X /\ wf X /\ dims X = [n; n] /\
         forall i l, i < n -> l < n -> mmul N n (fun i l => val N M [i; l]) (fun i l => val N X [i; l]) i l = val N b [i; l]) ->
    expm N K lt rzero radd modulus floor_log2 solve jdims junk jaux a q = Ok Y ->
    let j := Z.to_nat (Z.max 0 (e + 1)) in
    let B := fun i l => fdiv K (val N a [i; l]) (fnat K (2 ^ j)) in
    exists X : nat -> nat -> A,
      (forall i l, i < n -> l < n -> mmul N n (pade N K n q (mneg N K B)) X i l = pade N K n q B i l) /\
      dims Y = [n; n] /\ forall i l, i < n -> l < n -> elt Y [i; l] = Some (mpow N n X (2 ^ j) i l).
Proof.
  intros A R N K lt rzero radd modulus fl solve jd junk jaux a n q nrm e Y L W Da Hn Hq En Ee HS EY j B.
  destruct (C54_pade A R N K lt rzero radd modulus fl solve jd junk jaux a n q nrm e L W Da Hn Hq En Ee) as (P & D & RP & RD & H1 & H2).
  destruct (HS D P) as [HA|(X & EX & WX & DX & HX)]; try apply RP; try apply RD.
  - rewrite (H2 HA) in EY. discriminate.
  - destruct (H1 X EX WX DX) as (Y' & EY' & WY & DY & HY). assert (Y' = Y) by congruence. subst Y'.
    exists (fun i l => val N X [i; l]). split; [|split; auto]. intros i l Hi Hl.
    pose proof (HX i l Hi Hl) as HX'. rewrite (rep_val N n P _ i l RP Hi Hl) in HX'. refine (eq_trans _ HX').
    apply (mmul_ext N n); [|auto]. intros x Hx. symmetry. apply (rep_val N n D _ i x RD); auto.
Qed.
Print Assumptions C54_equation.

(* anything but a square matrix is rejected *)
Theorem C54_rejects :
  forall A R (N : numops A) (K : fieldops A) lt (rzero : R) radd modulus floor_log2 solve jdims junk jaux (a : tensor A) q,
    (forall n, dims a <> [n; n]) ->
    expm N K lt rzero radd modulus floor_log2 solve jdims junk jaux a q = Abort.
Proof.
  intros A R N K lt rzero radd modulus fl solve jd junk jaux a q H. unfold expm.
  destruct (dims a) as [|r [|c [|x l]]] eqn:E; cbn [length Nat.eqb assert_ bind]; try reflexivity.
  rewrite (dimension_ok a [r] c [] 1 E eq_refl : dimension a 1 = Ok c), (dimension_ok a [] r [c] 0 E eq_refl : dimension a 0 = Ok r). cbn [bind].
  destruct (Nat.eqb_spec c r) as [->|]; [exfalso; apply (H r); reflexivity|reflexivity].
Qed.
Print Assumptions C54_rejects.

(* The scaling exponent, for rational matrices with a nonzero element: after
   the division every row's sum of moduli is below 1, and j is the least
   exponent with that effect. *)
Theorem C54_scaling :
  forall jaux (a : tensor Qc) n,
    wf a -> dims a = [n; n] -> (exists i l x, elt a [i; l] = Some x /\ x <> Q2Qc 0) ->
    exists nrm e, matrix_norminf Qc_ltb (Q2Qc 0) Qcplus Qc_abs jaux a = Ok nrm /\ floor_log2_Qc nrm = Ok e /\
      let j := Z.to_nat (Z.max 0 (e + 1)) in
      let rowsum i := sum_n Qcnum n (fun x => Qc_abs (val Qcnum a [i; x] / fnat Qcfield (2 ^ j))%Qc) in
      (forall i, i < n -> (rowsum i < 1)%Qc) /\
      (0 < j -> exists i, i < n /\ (Q2Qc (1 # 2) <= rowsum i)%Qc).
Proof. exact scaling_ok. Qed.
Print Assumptions C54_scaling.

(* expm on the rational numbers *)
Definition expm_Qc := expm Qcnum Qcfield Qc_ltb (Q2Qc 0) Qcplus Qc_abs floor_log2_Qc.

(* The zero matrix, whose exponential is the identity: the conversion of
   floor(log2(0)) to int is undefined. *)
Theorem C54_zero_refuted : forall solve jdims junk jaux n q, 0 < n ->
  let a := mkT [n; n] (repeat (Q2Qc 0) (n * n)) in
  wf a /\ expm_Qc solve jdims junk jaux a q = UB.
Proof.
  intros solve jd junk jaux n q Hn a. assert (W : wf a) by (unfold wf; cbn; rewrite repeat_length; lia). split; [exact W|].
  unfold expm_Qc, expm. change (dims a) with [n; n]. cbn [length Nat.eqb assert_ bind].
  rewrite (dimension_ok a [n] n [] 1 eq_refl eq_refl : dimension a 1 = Ok n), (dimension_ok a [] n [n] 0 eq_refl eq_refl : dimension a 0 = Ok n). cbn [bind].
  rewrite Nat.eqb_refl. cbn [assert_ bind].
  destruct (norminf_ok Qcnum Qcnum Qc_ltb Qc_ltb_total Qc_abs) with (jaux := jaux) (m := a) (r := n) (c := n) as (nrm & En & V1 & _); auto.
  { intros x. cbn. ring. }
  assert (Hz : nrm = Q2Qc 0).
  { destruct V1 as [V1|(i & Hi & V1)]; [exact V1|]. rewrite V1. unfold rowsum. apply (sum_zero Qcnum Qcfield Qcfield_laws). intros x Hx.
    assert (Ev : val Qcnum a [i; x] = Q2Qc 0).
    { unfold val. destruct (elt a [i; x]) eqn:Ex; [|reflexivity]. unfold elt in Ex. destruct (validb _ _); [|discriminate]. apply nth_error_In in Ex. apply repeat_spec in Ex. exact Ex. }
    rewrite Ev. reflexivity. }
  cbn [Qcnum nzero nadd] in En. rewrite En, Hz. reflexivity.
Qed.
Print Assumptions C54_zero_refuted.

(* The source says that the matrix is scaled "until the norm is < 1/2"; it is
   not: this one is left alone and has norm 3/4. *)
Theorem C54_norm_half_refuted :
  let a := mkT [1; 1] [Q2Qc (3 # 4)] in
  exists e, matrix_norminf Qc_ltb (Q2Qc 0) Qcplus Qc_abs (fun _ => Q2Qc 5) a = Ok (Q2Qc (3 # 4)) /\
    floor_log2_Qc (Q2Qc (3 # 4)) = Ok e /\ Z.max 0 (e + 1) = 0%Z /\ (Q2Qc (1 # 2) < Q2Qc (3 # 4))%Qc.
Proof.
  exists (-1)%Z. split; [|split; [reflexivity|split; reflexivity]]. 
  cbv - [Q2Qc Qcplus]. reflexivity.
Qed.
Print Assumptions C54_norm_half_refuted.

(* a 2x2 system solved by Cramer's rule, and a nilpotent matrix whose
   exponential is known: exp [[0,3],[0,0]] = [[1,3],[0,1]] *)
Definition solve22 (D P : tensor Qc) : outcome (tensor Qc) :=
  match data D, data P with
  | [a; c; b; d], [x; z; y; w] =>
      let det := (a * d - b * c)%Qc in
      if Qeq_bool det 0 then Abort else
      Ok (mkT [2; 2] [((d * x - b * z) / det)%Qc; ((a * z - c * x) / det)%Qc; ((d * y - b * w) / det)%Qc; ((a * w - c * y) / det)%Qc])
  | _, _ => Abort
  end.
Example C54_meets :
  let a := mkT [2; 2] (map Q2Qc [0; 0; 3 # 1; 0]%Q) in
  fieldlaws Qcnum Qcfield /\ wf a /\
  (Y <- expm_Qc solve22 (fun _ => 7) (fun _ => Q2Qc 9) (fun _ => Q2Qc 8) a 3 ;; Ok (map this (data Y))) = Ok [1; 0; 3 # 1; 1]%Q.
Proof. split; [exact Qcfield_laws|]. split; [reflexivity|]. vm_compute. reflexivity. Qed.
