(* C83: iterators and references that a program keeps. *)
From Verif Require Import Base M_RefCount S_RefCount L_RefCount M_Iter S_Iter L_Iter.

(* A program that forgets its pointers in time sees independent values: every read,
   through a variable or a pointer, gives what the value semantics says, and every
   write through a pointer changes its variable and no other. *)
Theorem C83_kept_pointers : forall (A : Type) (bufs : list (list A)) (ops : list (iop A)) t ks xs,
  isrun ([], []) ops = Some ((t, ks), xs) ->
  exists s, irun (mkI (init bufs) []) ops = Ok (s, xs) /\
    seen (ist s) = map (option_map Own) t /\ ext (ist s) = map Some bufs.
Proof.
  intros A bufs ops t ks xs H. assert (R : IRel (mkI (init bufs) []) ([], [])) by (split; [split; [apply Inv_init|reflexivity]|constructor]).
  destruct (isim_run ops _ _ _ _ R H) as (s & E & [[HI HS] _] & X). exists s. auto.
Qed.
Print Assumptions C83_kept_pointers.

(* After a copy the pointer writes into both. *)
Theorem C83_copy_refuted : exists s, irun (mkI (init []) []) [IOp (ONew [1; 2]); IBegin 0; IOp (OCopy 0); IStore 0 0 9; IOp (ORead 0 0); IOp (ORead 1 0)] =
  Ok (s, [ONone; ONone; ONone; ONone; OVal 9; OVal 9]).
Proof. eexists. reflexivity. Qed.
Print Assumptions C83_copy_refuted.

(* After a write to a shared variable a pointer for reading shows the old values, and
   points to deleted memory once the other owner is gone. *)
Theorem C83_stale_refuted :
  (exists s, irun (mkI (init []) []) [IOp (ONew [1; 2]); IOp (OCopy 0); ICBegin 0; IOp (OWrite 0 0 5); IOp (ORead 0 0); ILoad 0 0] =
    Ok (s, [ONone; ONone; ONone; ONone; OVal 5; OVal 1])) /\
  irun (mkI (init []) []) [IOp (ONew [1; 2]); IOp (OCopy 0); ICBegin 0; IOp (OWrite 0 0 5); IOp (ODestroy 1); ILoad 0 0] = UB.
Proof. split; [eexists; reflexivity|reflexivity]. Qed.
Print Assumptions C83_stale_refuted.

(* begin_const() and end() of a shared variable point into different blocks: the loop
   for (it = v.begin_const(); it != v.end(); ++it) does not end at the end *)
Theorem C83_mixed_ends_refuted : exists s a b xs, irun (mkI (init []) []) [IOp (ONew [1; 2]); IOp (OCopy 0); ICBegin 0; IBegin 0] = Ok (s, xs) /\
  iptr s = [a; b] /\ a <> b.
Proof. do 4 eexists. split; [reflexivity|]. split; [reflexivity|]. discriminate. Qed.
Print Assumptions C83_mixed_ends_refuted.

(* a program with two variables that share, pointers for writing into both, kept
   across writes, reads and copies of other variables *)
Example C83_meets : isrun ([], [])
  [IOp (ONew [1; 2]); IOp (OCopy 0); IOp (ONew [7]); IBegin 0; ICBegin 1; IBegin 2; IStore 0 1 5; IOp (OWrite 0 0 4); ILoad 1 1; IOp (OCopy 1); ILoad 1 0; IStore 2 0 8; ILoad 0 0] =
  Some (([Some [4; 5]; Some [1; 2]; Some [8]; Some [1; 2]], [Some (true, 0); Some (false, 1); Some (true, 2)]),
        [ONone; ONone; ONone; ONone; ONone; ONone; ONone; ONone; OVal 2; ONone; OVal 1; ONone; OVal 4]).
Proof. reflexivity. Qed.
