(* C98: the reference counter is an int.  Vocabulary: S_RefInt.v, S_RefCount.v *)
From Verif Require Import Base M_RefCount S_RefCount L_RefCount S_RefInt M_RefInt L_RefInt.

(* While there are never more than 2^31 - 1 vectors alive, copies are
   independent values ([srun], C01) also with the counter that the code has,
   whether additions that overflow wrap or are undefined. *)
Theorem C98_values_partial :
  forall (wraps : bool) (A : Type) (bufs : list (list A)) (ops : list (op A)) (t : sstate A) (xs : list (obs A)),
    srun [] ops = Some (t, xs) -> few ops ->
    exists s, run_int wraps (init bufs) ops = Ok (s, xs) /\
      seen s = map (option_map Own) t /\ ext s = map Some bufs.
Proof. intros. apply c98_values; auto. Qed.
Print Assumptions C98_values_partial.

(* Along every history of legal operations, foreign memory included, with no
   more than 2^31 - 1 vectors alive at any moment, the program with the int
   counter does what the program with an unbounded counter does. *)
Theorem C98_counter_partial :
  forall (wraps : bool) (A : Type) (bufs : list (list A)) (ops : list (op A)) (s : state A),
    reach (init bufs) ops s -> few ops ->
    exists xs, run (init bufs) ops = Ok (s, xs) /\ run_int wraps (init bufs) ops = Ok (s, xs).
Proof. intros wraps A bufs ops s H1 H2. exact (proj2 (c98_reach wraps bufs ops s H1 H2)). Qed.
Print Assumptions C98_counter_partial.

(* The bound is exact.  A vector and 2^31 - 1 copies of it is a correct
   program for the specification, but the last copy overflows the counter.  On
   a machine where it wraps, one more copy and the destruction of one of them
   release the memory that all the others still read. *)
Theorem C98_any_number_refuted :
  forall (A : Type) (v : A),
    exists n : nat, Z.of_nat n = (2 ^ 31 - 1)%Z /\
    (exists t xs, srun [] (ONew [v] :: repeat (OCopy 0) n) = Some (t, xs)) /\
    run_int false (init []) (ONew [v] :: repeat (OCopy 0) n) = UB /\
    (exists t xs, srun [] (ONew [v] :: repeat (OCopy 0) (S n) ++ [ODestroy 1; ORead 0 0]) = Some (t, xs)) /\
    run_int true (init []) (ONew [v] :: repeat (OCopy 0) (S n) ++ [ODestroy 1; ORead 0 0]) = UB.
Proof.
  intros A v.
  assert (exists m : nat, Z.of_nat m = (2 ^ 31 - 2)%Z) as [m Hm].
  { exists (Z.to_nat (2 ^ 31 - 2)). apply Z2Nat.id. lia. }
  exists (S m). split; [lia|].
  assert (E1 : ONew [v] :: repeat (OCopy 0) (S m) = many [v] m [OCopy 0]).
  { unfold many. rewrite repeat_snoc. reflexivity. }
  assert (E2 : ONew [v] :: repeat (OCopy 0) (S (S m)) ++ [ODestroy 1; ORead 0 0]
               = many [v] m [OCopy 0; OCopy 0; ODestroy 1; ORead 0 0]).
  { unfold many. f_equal. rewrite <- !repeat_snoc, <- !app_assoc. reflexivity. }
  rewrite E1, E2. destruct (c98_undefined [v] m Hm), (c98_freed v m Hm). auto.
Qed.
Print Assumptions C98_any_number_refuted.

(* the hypotheses hold: a program with several copies alive *)
Example C98_case :
  let ops := [ONew [7;8;9]; OCopy 0; OCopy 1; OWrite 1 2 5; OAssign 2 1; ODestroy 0; ORead 2 2] in
  few ops /\ (exists t xs, srun [] ops = Some (t, xs)) /\ handles ops = 2%Z.
Proof.
  cbv zeta. split; [|split; [simpl; eauto|reflexivity]].
  intros k. do 8 (destruct k as [|k]; [simpl; lia|]). simpl. lia.
Qed.
