(* C01-C04: copy-on-write storage.  Vocabulary: S_RefCount.v *)
From Verif Require Import Base M_RefCount S_RefCount L_RefCount.

(* C01.  [srun] is the specification in which every variable owns a private
   list; whenever it accepts the program, the copy-on-write code runs without
   error, gives the same observations and ends with every variable holding the
   specified contents.  The caller's memory is not touched. *)
Theorem C01_copies_are_independent_values :
  forall (A : Type) (bufs : list (list A)) (ops : list (op A)) (t : sstate A) (xs : list (obs A)),
    srun [] ops = Some (t, xs) ->
    exists s, run (init bufs) ops = Ok (s, xs) /\
      seen s = map (option_map Own) t /\ ext s = map Some bufs.
Proof. exact @c01_run. Qed.
Print Assumptions C01_copies_are_independent_values.

(* non-vacuity: two variables share, one writes, both are read *)
Example C01_nonvacuous :
  srun (A := nat) [] [ONew [7;8;9]; OCopy 0; OWrite 1 2 5; ORead 0 2; ORead 1 2;
                      OAssign 0 1; OAssign 0 0; OWrite 0 0 1; ORead 1 0; ODestroy 0; OResize 1 [4]; OSize 1]
  = Some ([None; Some [4]],
          [ONone; ONone; ONone; OVal 9; OVal 5; ONone; ONone; ONone; OVal 7; ONone; ONone; ONum 1]).
Proof. reflexivity. Qed.

(* C02.  Along every history of legal operations (also with foreign memory):
   no legal operation fails (touching a deleted object is UB in the model, so
   there is no use after free and no double free), ref_count() is the number of
   live variables on the object, every live object is held by some live
   variable, and once all variables are destroyed no object is left. *)
Theorem C02_reference_counts_exact :
  forall (A : Type) (bufs : list (list A)) (ops : list (op A)) (s : state A),
    reach (init bufs) ops s ->
    (forall o, legal s o -> exists s' x, step s o = Ok (s', x)) /\
    (forall h a, nth_error (vars s) h = Some (Some a) ->
       ref_count s h = Ok (nrefs (vars s) a) /\ (1 <= nrefs (vars s) a)%Z) /\
    (forall a p, nth_error (heap s) a = Some (Some p) ->
       exists h, nth_error (vars s) h = Some (Some a)) /\
    (Forall (fun v => v = None) (vars s) -> Forall (fun b => b = None) (heap s)).
Proof. exact @c02_counts. Qed.
Print Assumptions C02_reference_counts_exact.

Example C02_nonvacuous :
  exists s : state nat, reach (init [[1;2;3]]) [ONew [7;8;9]; OCopy 0; OWrite 1 2 5] s /\
    ref_count s 0 = Ok 1%Z.
Proof.
  eexists. split.
  - change [ONew [7;8;9]; OCopy 0; OWrite 1 2 5] with ((([] ++ [ONew [7;8;9]]) ++ [OCopy 0]) ++ [OWrite 1 2 5]).
    eapply reach_step; [eapply reach_step; [eapply reach_step; [apply reach_nil| |]| |]| |].
    + exact I.
    + reflexivity.
    + eexists. reflexivity.
    + reflexivity.
    + eexists. split; [reflexivity|]. simpl. lia.
    + reflexivity.
  - reflexivity.
Qed.

(* C03.  Caller memory: never released and never resized; modified only by the
   caller itself or by a write through a variable that sees it and is at that
   moment the only one on its object, and then only at the written position;
   writing through a shared variable leaves it unchanged and detaches the
   variable; reading through a wrapping variable reads the caller's memory. *)
Theorem C03_foreign_memory :
  forall (A : Type) (bufs : list (list A)) (ops : list (op A)) (s : state A) (o : op A) (s' : state A) (x : obs A),
    reach (init bufs) ops s -> legal s o -> step s o = Ok (s', x) ->
    (forall f l, nth_error (ext s) f = Some (Some l) ->
       exists l', nth_error (ext s') f = Some (Some l') /\ length l' = length l) /\
    (forall f l l' i, nth_error (ext s) f = Some (Some l) -> nth_error (ext s') f = Some (Some l') ->
       nth_error l i <> nth_error l' i ->
       (exists v, o = OPoke f i v /\ nth_error l' i = Some v) \/
       (exists h v n, o = OWrite h i v /\ nth_error l' i = Some v /\
          nth_error (seen s) h = Some (Some (Ext f n)) /\ i < n /\ ref_count s h = Ok 1%Z)) /\
    (forall h i v f n, o = OWrite h i v -> nth_error (seen s) h = Some (Some (Ext f n)) ->
       ref_count s h <> Ok 1%Z ->
       ext s' = ext s /\ exists l, nth_error (ext s) f = Some (Some l) /\
         nth_error (seen s') h = Some (Some (Own (upd (firstn n l) i v)))) /\
    (forall h i f n, o = ORead h i -> nth_error (seen s) h = Some (Some (Ext f n)) ->
       exists l v, nth_error (ext s) f = Some (Some l) /\ nth_error l i = Some v /\ x = OVal v).
Proof. exact @c03_foreign. Qed.
Print Assumptions C03_foreign_memory.

Example C03_nonvacuous :
  run (A := nat) (init [[1;2;3]]) [OWrap 0 2; OWrite 0 1 9; OCopy 0; OWrite 1 0 8; ORead 0 0; OWrite 0 0 6]
  = Ok (mkS [Some (mkP (Ext 0 2) 1 false); Some (mkP (Own [8;9]) 1 true)] [Some [6;9;3]] [Some 0; Some 1],
        [ONone; ONone; ONone; ONone; OVal 1; ONone]).
Proof. reflexivity. Qed.

(* C04 fails: the class has a destructor but no copy constructor, so the second
   destruction of a copied handle reads the deleted counter. *)
Theorem C04_shared_ptr_copy_refuted :
  exists ops, sp_legal (mkSP [] []) ops /\ sprun (mkSP [] []) ops = UB.
Proof. exact c04_refuted. Qed.
Print Assumptions C04_shared_ptr_copy_refuted.

(* What does hold: histories without copies destroy every handle exactly once. *)
Theorem C04_shared_ptr_partial :
  forall ops, ~ (exists h, In (SPCopy h) ops) -> sp_legal (mkSP [] []) ops ->
    exists s, sprun (mkSP [] []) ops = Ok s.
Proof. exact c04_partial. Qed.
Print Assumptions C04_shared_ptr_partial.

Example C04_nonvacuous : sp_legal (mkSP [] []) [SPNew; SPNew; SPDestroy 1; SPDestroy 0].
Proof.
  repeat (split; [first [exact I | eexists; reflexivity] | intros ? E; inversion E; subst; clear E]).
  exact I.
Qed.
