(* C53: block_svd, with any choice of outputs *)
From Coq Require Import QArith Qcanon.
From Verif Require Import Base Spec S_Fold M_Tensor M_Arith M_Range S_Reduce M_Reduce L_Reduce M_Blocks S_Blocks L_Blocks P_Blocks M_BlockSvd S_BlockSvd L_BlockSvd S_Expm M_Expm L_Expm L_Fold L_Permute P_BlockSvd M_BlockSvdOut.
Local Open Scope nat_scope.

(* what is delivered of x *)
Definition asked {X} (want : bool) (x : X) : option X := if want then Some x else None.

Lemma bind_ok {X Y} (x : outcome X) (f : X -> outcome Y) y : bind x f = Ok y -> exists z, x = Ok z /\ f z = Ok y.
Proof. destruct x; cbn; try discriminate. eauto. Qed.
Lemma if_given_asked {X} want (x : X) f y : f x = Ok y -> if_given (asked want x) f = Ok (asked want y).
Proof. intros E. destruct want; cbn; [rewrite E|]; reflexivity. Qed.

Section Out.
Context {A R T : Type} (N : numops A) (rzero : R) (lt : R -> R -> bool).
Context (absv : A -> R) (divr : A -> R -> A) (significant : T -> A -> bool) (zero_tol : T).
Context (std_sort_ix : (nat -> nat -> bool) -> list nat -> list nat).
Context (svd : tensor A -> bool -> outcome (tensor R * tensor A * tensor A)).
Context (svdo : tensor A -> bool -> bool -> bool -> outcome (tensor R * option (tensor A) * option (tensor A))).
Context (junk : nat -> A) (junkr : nat -> R) (jb : nat -> Z).
Context (Hsvd : forall t e s U VT wu wv, svd t e = Ok (s, U, VT) -> svdo t wu wv e = Ok (s, asked wu U, asked wv VT)).

Lemma step_out fuel a e rows cols wu wv b s U VT k s' U' VT' k' :
  block_step N absv divr svd junk fuel a e rows cols b (s, U, VT, k) = Ok (s', U', VT', k') ->
  out_step N absv divr svdo junk fuel a e rows cols b (s, asked wu U, asked wv VT, k) = Ok (s', asked wu U', asked wv VT', k').
Proof using Hsvd.
  unfold block_step, out_step. intros E.
  apply bind_ok in E as (rs & E1 & E). rewrite E1. cbn [bind]. apply bind_ok in E as (cs & E2 & E). rewrite E2. cbn [bind]. apply bind_ok in E as (m & E3 & E). rewrite E3. cbn [bind].
  destruct (1 <? length (data m)).
  - apply bind_ok in E as ([[st Ut] Vt] & E4 & E).
    replace (given (asked wu U)) with wu by (destruct wu; reflexivity). replace (given (asked wv VT)) with wv by (destruct wv; reflexivity).
    rewrite (Hsvd _ _ _ _ _ wu wv E4). cbn [bind]. cbv zeta in *.
    apply bind_ok in E as (s1 & E5 & E). rewrite E5. cbn [bind]. apply bind_ok in E as (U1 & E6 & E). apply bind_ok in E as (V1 & E7 & E). injection E as <- <- <- <-.
    assert (F1 : if_given (asked wu U) (fun U => x <- held (asked wu Ut) ;; assign_tensor fuel U [ixs rs; SStep (Z.of_nat k) (Z.of_nat k + Z.of_nat (length (data st)) - 1) 1] x) = Ok (asked wu U1)) by (destruct wu; cbn [asked if_given held bind]; [rewrite E6|]; reflexivity).
    assert (F2 : if_given (asked wv VT) (fun V => x <- held (asked wv Vt) ;; assign_tensor fuel V [SStep (Z.of_nat k) (Z.of_nat k + Z.of_nat (length (data st)) - 1) 1; ixs cs] x) = Ok (asked wv V1)) by (destruct wv; cbn [asked if_given held bind]; [rewrite E7|]; reflexivity).
    rewrite F1. cbn [bind]. rewrite F2. reflexivity.
  - apply bind_ok in E as (r & E4 & E). rewrite E4. cbn [bind]. apply bind_ok in E as (c & E5 & E). rewrite E5. cbn [bind]. apply bind_ok in E as (x & E6 & E). rewrite E6. cbn [bind]. cbv zeta in *.
    apply bind_ok in E as (s1 & E7 & E). rewrite E7. cbn [bind]. apply bind_ok in E as (U1 & E8 & E). apply bind_ok in E as (V1 & E9 & E). injection E as <- <- <- <-.
    rewrite (if_given_asked wu U _ U1 E8). cbn [bind]. rewrite (if_given_asked wv VT _ V1 E9). reflexivity.
Qed.
Lemma loop_out fuel a e rows cols wu wv n : forall s U VT k s' U' VT' k',
  for_ n (block_step N absv divr svd junk fuel a e rows cols) (s, U, VT, k) = Ok (s', U', VT', k') ->
  for_ n (out_step N absv divr svdo junk fuel a e rows cols) (s, asked wu U, asked wv VT, k) = Ok (s', asked wu U', asked wv VT', k').
Proof using Hsvd.
  induction n as [|n IH]; intros s U VT k s' U' VT' k' E.
  - rewrite for_0 in E. rewrite for_0. injection E as <- <- <- <-. reflexivity.
  - rewrite for_S in E. rewrite for_S. apply bind_ok in E as ([[[s1 U1] V1] k1] & E1 & E2). rewrite (IH _ _ _ _ _ _ _ _ E1). cbn [bind]. apply step_out, E2.
Qed.
End Out.

(* The values, and the outputs that are asked for, do not depend on which ones
   are asked for, if that is so for svd: what C53_block_svd_partial and
   C53_full_rank say of block_svd(A, &U, &VT) holds for every choice. *)
Theorem C53_outputs : forall (A R T : Type) (N : numops A) (rzero : R) (lt : R -> R -> bool) (absv : A -> R) (divr : A -> R -> A)
    (significant : T -> A -> bool) (zero_tol : T) std_sort_ix svd svdo junk junkr jb fuel (a : tensor A) economic s U VT (wantU wantVT : bool),
  (forall t e s U VT wu wv, svd t e = Ok (s, U, VT) -> svdo t wu wv e = Ok (s, asked wu U, asked wv VT)) ->
  block_svd N rzero lt absv divr significant zero_tol std_sort_ix svd junk junkr jb fuel a economic = Ok (s, U, VT) ->
  block_svd_out N rzero lt absv divr significant zero_tol std_sort_ix svdo junk junkr jb fuel a wantU wantVT economic = Ok (s, asked wantU U, asked wantVT VT).
Proof.
  intros A R T N rzero lt absv divr sg z srt svd svdo junk junkr jb fuel a e s U VT wu wv Hsvd E. unfold block_svd in E. unfold block_svd_out.
  apply bind_ok in E as (n & E1 & E). rewrite E1. cbn [bind]. apply bind_ok in E as (m & E2 & E). rewrite E2. cbn [bind].
  destruct (negb (n =? m) && negb e); [apply Hsvd, E|]. cbv zeta in *. apply bind_ok in E as ([nb r] & E3 & E). rewrite E3. cbn [bind].
  destruct r as [[rows cols]|]; [|apply Hsvd, E].
  apply bind_ok in E as (s0 & E4 & E). rewrite E4. cbn [bind]. apply bind_ok in E as (U0 & E5 & E). apply bind_ok in E as (V0 & E6 & E).
  replace (if wu then U <- zeros N junk [n; if e then Nat.min n m else n] ;; Ok (Some U) else Ok None) with (Ok (asked wu U0)) by (destruct wu; [rewrite E5|]; reflexivity). cbn [bind].
  replace (if wv then VT <- zeros N junk [if e then Nat.min n m else m; m] ;; Ok (Some VT) else Ok None) with (Ok (asked wv V0)) by (destruct wv; [rewrite E6|]; reflexivity). cbn [bind].
  apply bind_ok in E as ([[[s1 U1] V1] k1] & E7 & E). rewrite (loop_out N absv divr svd svdo junk Hsvd fuel a e rows cols wu wv _ _ _ _ _ _ _ _ _ E7). cbn [bind].
  apply bind_ok in E as (s2 & E8 & E). rewrite E8. cbn [bind]. apply bind_ok in E as (U2 & E9 & E). apply bind_ok in E as (V2 & E10 & E). injection E as <- <- <-.
  rewrite (if_given_asked wu U1 _ U2 E9). cbn [bind]. rewrite (if_given_asked wv V1 _ V2 E10). reflexivity.
Qed.
Print Assumptions C53_outputs.

(* the matrix of C53_meets, VT alone *)
Example C53_outputs_meets :
  let a := mkT [2; 3] (qs [3; 0;  4; 0;  0; 7]%Z) in
  let svdo t wu wv e := '(s, U, VT) <- svd34 t e ;; Ok (s, asked wu U, asked wv VT) in
  exists s U VT, block_svd_Qc svd34 a true = Ok (s, U, VT) /\
    block_svd_out Qcnum (Q2Qc 0) Qc_ltb Qc_abs Qcdiv sig_Qc (Q2Qc 0) insertion_sort svdo (fun _ => Q2Qc 9) (fun _ => Q2Qc 8) (fun _ => 77%Z) 50 a false true true = Ok (s, None, Some VT).
Proof.
  intros a svdo. destruct C53_meets as (_ & _ & _ & _ & _ & _ & _ & E). fold a in E.
  destruct (block_svd_Qc svd34 a true) as [[[s U] VT]| | |] eqn:B; try discriminate E. exists s, U, VT. split; [reflexivity|].
  apply (C53_outputs Qc Qc Qc Qcnum (Q2Qc 0) Qc_ltb Qc_abs Qcdiv sig_Qc (Q2Qc 0) insertion_sort svd34 svdo (fun _ => Q2Qc 9) (fun _ => Q2Qc 8) (fun _ => 77%Z) 50 a true s U VT false true); [|exact B].
  intros t e s0 U0 V0 wu wv H. unfold svdo. rewrite H. reflexivity.
Qed.
