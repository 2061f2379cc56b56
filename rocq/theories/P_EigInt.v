(* C103 for eig and eig_sym.  Vocabulary: Spec.v, S_BlasInt.v *)
From Verif Require Import Base Spec S_BlasInt M_Tensor M_Arith M_Fold M_Svd M_Eig M_BlasInt L_Fold L_BlasInt P_BlasInt M_EigInt.
From Coq Require Import ZArith Lia List Bool.
Import ListNotations.
Local Open Scope nat_scope.

(* The test that the matrix is square is made after the conversion, and so it
   finds every size that is not an integer of LAPACK. *)
Lemma rows_int_ok bits n : 1 <= bits <= 64 -> (Z.of_nat n < 2 ^ 63)%Z ->
  (holds bits (Z.of_nat n) -> rows_int bits n n = Ok (Z.of_nat n)) /\ (~ holds bits (Z.of_nat n) -> rows_int bits n n = Abort).
Proof.
  intros Hb Hn. pose proof (imax_pow bits ltac:(lia)) as Hi. unfold holds, rows_int. fold (imax bits). split; intros H.
  - rewrite to_integer_id by lia. rewrite Z.mod_small by lia. rewrite Z.eqb_refl. reflexivity.
  - assert (N : ((to_integer bits (Z.of_nat n)) mod 2 ^ 64 <> Z.of_nat n)%Z).
    { assert (P : (2 ^ Z.of_nat bits <= 2 ^ 64)%Z) by (apply Z.pow_le_mono_r; lia).
      assert (Q : (0 < 2 ^ Z.of_nat bits)%Z) by lia.
      unfold to_integer. pose proof (Z.mod_pos_bound (Z.of_nat n) (2 ^ Z.of_nat bits) Q) as M.
      destruct (Z.leb_spec (Z.of_nat n mod 2 ^ Z.of_nat bits) (imax bits)) as [L|L].
      - rewrite Z.mod_small; lia.
      - set (r := (Z.of_nat n mod 2 ^ Z.of_nat bits)%Z) in *.
        replace (r - 2 ^ Z.of_nat bits)%Z with (2 ^ 64 + r - 2 ^ Z.of_nat bits + (-1) * 2 ^ 64)%Z by lia. rewrite Z.mod_add by lia. rewrite Z.mod_small by lia. lia. }
    apply Z.eqb_neq in N. rewrite N. reflexivity.
Qed.

Section Square.
Context {E T : Type} (bits : nat) (Hb : 1 <= bits <= 64) (A : tensor E) (HA : forall d, In d (dims A) -> (Z.of_nat d < 2 ^ 63)%Z).
Definition checked (f : nat -> outcome T) : outcome T :=
  rows <- dimension A 0 ;;
  _ <- assert_ (0 <? rows) ;;
  _ <- assert_ (length (dims A) =? 2) ;;
  columns <- dimension A 1 ;;
  _ <- assert_ (rows =? columns) ;; f rows.
Definition checked_int (f : nat -> outcome T) : outcome T :=
  rows <- dimension A 0 ;;
  _ <- assert_ (0 <? rows) ;;
  _ <- assert_ (length (dims A) =? 2) ;;
  columns <- dimension A 1 ;;
  _ <- assert_ (rows =? columns) ;; n <- rows_int bits rows columns ;; _ <- assert_ (0 <=? n)%Z ;; f (Z.to_nat n).
Lemma checked_ok f : (forall d, In d (dims A) -> holds bits (Z.of_nat d)) -> checked_int f = checked f.
Proof.
  intros H. unfold checked_int, checked. destruct (dims A) as [|m [|n [|x r]]] eqn:D; try (unfold dimension; rewrite D; cbn; try reflexivity; destruct m; reflexivity).
  rewrite (dim_0 A m _ D), (dim_1 A m n _ D). cbn [bind]. destruct (0 <? m); [|reflexivity]. cbn [assert_ bind length Nat.eqb].
  destruct (Nat.eqb_spec m n) as [->|]; [|reflexivity]. cbn [assert_ bind].
  destruct (rows_int_ok bits n Hb) as [K _]; [apply HA; cbn; auto|]. rewrite K by (apply H; cbn; auto). cbn [bind]. replace (0 <=? Z.of_nat n)%Z with true by lia. cbn [assert_ bind]. rewrite Nat2Z.id. reflexivity.
Qed.
Lemma checked_abort (g : Z -> outcome T) : (exists d, In d (dims A) /\ ~ holds bits (Z.of_nat d)) ->
  (rows <- dimension A 0 ;;
  _ <- assert_ (0 <? rows) ;;
  _ <- assert_ (length (dims A) =? 2) ;;
  columns <- dimension A 1 ;;
  _ <- assert_ (rows =? columns) ;; n <- rows_int bits rows columns ;; g n) = Abort.
Proof.
  intros (d & I & H). destruct (dims A) as [|m [|n [|x r]]] eqn:D.
  - contradiction.
  - rewrite (dim_0 A m _ D). cbn [bind]. destruct (0 <? m); reflexivity.
  - rewrite (dim_0 A m _ D), (dim_1 A m n _ D). cbn [bind]. destruct (0 <? m); [|reflexivity]. cbn [assert_ bind length Nat.eqb].
    destruct (Nat.eqb_spec m n) as [->|]; [|reflexivity]. cbn [assert_ bind].
    destruct (rows_int_ok bits n Hb) as [_ K]; [apply HA; cbn; auto|]. rewrite K; [reflexivity|]. destruct I as [->|[->|[]]]; exact H.
  - rewrite (dim_0 A m _ D). cbn [bind]. destruct (0 <? m); reflexivity.
Qed.
End Square.

(* eig of a real matrix, with integers of any width up to that of size_t: if its
   sizes are integers of LAPACK it is as without a limit (C67), and if one is not
   the program stops before LAPACK is called, for every LAPACK. *)
Theorem C103_eig : forall bits R C (mk : R -> R -> C) zero neg nonzero dgeev (A : tensor R) wantR wantL,
  1 <= bits <= 64 -> (forall d, In d (dims A) -> (Z.of_nat d < 2 ^ 63)%Z) ->
  ((forall d, In d (dims A) -> holds bits (Z.of_nat d)) ->
     eig_int bits mk zero neg nonzero dgeev A wantR wantL = eig mk zero neg nonzero dgeev A wantR wantL) /\
  ((exists d, In d (dims A) /\ ~ holds bits (Z.of_nat d)) ->
     eig_int bits mk zero neg nonzero dgeev A wantR wantL = Abort).
Proof. intros bits R C mk zero neg nonzero dgeev A wantR wantL Hb HA. split; intros H; [exact (checked_ok bits Hb A HA _ H)|exact (checked_abort bits Hb A HA _ H)]. Qed.
Print Assumptions C103_eig.
(* The same for complex matrices *)
Theorem C103_eig_z : forall bits C zgeev (A : tensor C) wantR wantL,
  1 <= bits <= 64 -> (forall d, In d (dims A) -> (Z.of_nat d < 2 ^ 63)%Z) ->
  ((forall d, In d (dims A) -> holds bits (Z.of_nat d)) -> eig_z_int bits zgeev A wantR wantL = eig_z zgeev A wantR wantL) /\
  ((exists d, In d (dims A) /\ ~ holds bits (Z.of_nat d)) -> eig_z_int bits zgeev A wantR wantL = Abort).
Proof. intros bits C zgeev A wantR wantL Hb HA. split; intros H; [exact (checked_ok bits Hb A HA _ H)|exact (checked_abort bits Hb A HA _ H)]. Qed.
Print Assumptions C103_eig_z.
(* and for eig_sym, real or complex *)
Theorem C103_eig_sym : forall bits A R heev (junkr : nat -> R) (t : tensor A) wantV,
  1 <= bits <= 64 -> (forall d, In d (dims t) -> (Z.of_nat d < 2 ^ 63)%Z) ->
  ((forall d, In d (dims t) -> holds bits (Z.of_nat d)) -> eig_sym_int bits heev junkr t wantV = eig_sym junkr heev t wantV) /\
  ((exists d, In d (dims t) /\ ~ holds bits (Z.of_nat d)) -> eig_sym_int bits heev junkr t wantV = Abort).
Proof. intros bits A R heev junkr t wantV Hb HA. split; intros H; [exact (checked_ok bits Hb t HA _ H)|exact (checked_abort bits Hb t HA _ H)]. Qed.
Print Assumptions C103_eig_sym.

(* With integers of 3 bits a matrix of 3 rows is held and one of 9 is not,
   although 9 is converted to 1. *)
Example C103_eig_nonvacuous :
  holds 3 (Z.of_nat 3) /\ ~ holds 3 (Z.of_nat 9) /\ to_integer 3 9 = 1%Z /\
  eig_z_int 3 (fun _ _ n a => (firstn n a, a, a)) (mkT [3; 3] (seq 0 9)) true false = Ok (mkT [3] [0; 1; 2], Some (mkT [3; 3] (seq 0 9)), None) /\
  eig_z_int 3 (fun _ _ n a => (firstn n a, a, a)) (mkT [9; 9] (seq 0 81)) true false = Abort.
Proof. unfold holds. repeat split; cbn; lia. Qed.
