(* C85: vectors when memory runs out.  Vocabulary: S_RefCount.v, S_Alloc.v *)
From Verif Require Import Base M_RefCount S_RefCount L_RefCount M_Alloc S_Alloc.

Section L.
Context {A : Type}.
Implicit Types s : state A.
Implicit Types x : xstate A.

Lemma no_var_Inv s : Inv s -> Inv (no_var s).
Proof.
  intros H. unfold Inv, no_var; simpl. apply InvC_vars.
  eapply InvC_ext; [|exact H]. intros a. rewrite nrefs_app, ind_none. lia.
Qed.

Lemma no_var_seen s : seen (no_var s) = seen s ++ [None].
Proof. unfold seen, no_var; simpl. rewrite map_app. reflexivity. Qed.

(* what an operation that threw leaves *)
Definition untouched x (o : op A) x' : Prop :=
  st x' = (if declares o then no_var (st x) else st x) /\
  exists lost, leaked x' = leaked x ++ lost /\ length lost <= 1.

Lemma xstep_cases of m x o :
  Inv (st x) -> legal (st x) o ->
  exists x' r, xstep of m x o = Ok (x', r) /\
    match r with
    | Done y => step (st x) o = Ok (st x', y) /\ leaked x' = leaked x
    | Threw => for_array m && for_object m = false /\
               (is_resize o = false -> untouched x o x')
    end.
Proof.
  intros HI HL. destruct (step_ok _ _ HI HL) as (s' & y & E & I' & _).
  assert (Hb : forall b : bool, forall lost : list (list A), length lost <= 1 ->
    exists lost', leaked x ++ lost = leaked x ++ lost' /\ length lost' <= 1) by eauto.
  destruct o as [l| |f n|h|h g|h i v|h i|h|h l|h|f i v]; cbn [xstep].
  - unfold new_vector. destruct (for_array m && for_object m) eqn:Er.
    + eexists _, _. split; [reflexivity|]. split; reflexivity.
    + eexists _, _. split; [reflexivity|]. split; [reflexivity|]. intros _. split; [reflexivity|].
      eexists. split; [reflexivity|]. destruct (for_array m && negb of); simpl; lia.
  - destruct (for_object m) eqn:Er.
    + eexists _, _. split; [reflexivity|]. split; reflexivity.
    + eexists _, _. split; [reflexivity|]. rewrite andb_false_r. split; [reflexivity|].
      intros _. split; [reflexivity|]. exists []. rewrite app_nil_r. simpl. split; auto.
  - destruct HL as (l & Hl & Hn). simpl in E. rewrite Hl in *.
    apply Nat.leb_le in Hn. rewrite Hn in *.
    destruct (for_object m) eqn:Er.
    + eexists _, _. split; [reflexivity|]. inversion E; subst.
      split; [|reflexivity]. simpl. rewrite Hl, Hn. reflexivity.
    + eexists _, _. split; [reflexivity|]. rewrite andb_false_r. split; [reflexivity|].
      intros _. split; [reflexivity|]. exists []. rewrite app_nil_r. simpl. split; auto.
  - rewrite E. eexists _, _. split; [reflexivity|]. split; reflexivity.
  - rewrite E. eexists _, _. split; [reflexivity|]. split; reflexivity.
  - cbn [step] in *. unfold xappropriate. unfold appropriate in *.
    destruct (var (st x) h) as [a| | |] eqn:Ea; cbn [bind] in *; try discriminate.
    destruct (get (st x) a) as [p| | |] eqn:Ep; cbn [bind] in *; try discriminate.
    destruct (1 <? prefs p)%Z eqn:Ec; cbn [bind] in *.
    + unfold clone in *. rewrite Ep in *; cbn [bind] in *.
      destruct (contents (st x) (pbuf p)) as [l| | |] eqn:El; cbn [bind] in *; try discriminate.
      unfold new_clone. destruct (for_array m) eqn:E1; [destruct (for_object m) eqn:E2|].
      * cbn [new_pointer] in *.
        destruct (dereference _ a) as [s2| | |] eqn:E3; cbn [bind] in *; try discriminate.
        destruct (var (set_var s2 h _) h) as [a2| | |] eqn:E4; cbn [bind] in *; try discriminate.
        destruct (store _ a2 i v) as [s3| | |] eqn:E5; cbn [bind] in *; try discriminate.
        eexists _, _. split; [reflexivity|]. split; reflexivity.
      * cbn [bind]. eexists _, _. split; [reflexivity|]. split; [reflexivity|]. intros _.
        split; [reflexivity|]. exists [l]. split; [reflexivity|simpl; lia].
      * cbn [bind]. eexists _, _. split; [reflexivity|]. split; [reflexivity|]. intros _.
        split; [reflexivity|]. exists []. split; [reflexivity|simpl; lia].
    + rewrite Ea in *; cbn [bind] in *.
      destruct (store _ a i v) as [s3| | |] eqn:E5; cbn [bind] in *; try discriminate.
      eexists _, _. split; [reflexivity|]. split; reflexivity.
  - rewrite E. eexists _, _. split; [reflexivity|]. split; reflexivity.
  - rewrite E. eexists _, _. split; [reflexivity|]. split; reflexivity.
  - cbn [step] in *.
    destruct (var (st x) h) as [a| | |] eqn:Ea; cbn [bind] in *; try discriminate.
    destruct (dereference (st x) a) as [s1| | |] eqn:E1; cbn [bind] in *; try discriminate.
    unfold new_vector. destruct (for_array m && for_object m) eqn:Er.
    + eexists _, _. split; [reflexivity|]. split; reflexivity.
    + eexists _, _. split; [reflexivity|]. split; [reflexivity|]. intros C; discriminate C.
  - rewrite E. eexists _, _. split; [reflexivity|]. split; reflexivity.
  - rewrite E. eexists _, _. split; [reflexivity|]. split; reflexivity.
Qed.

Lemma untouched_Inv x o x' : Inv (st x) -> untouched x o x' -> Inv (st x').
Proof. intros HI [-> _]. destruct (declares o); auto. apply no_var_Inv; auto. Qed.

Lemma xreach_Inv of bufs ops rs x : xreach of (xinit bufs) ops rs x -> Inv (st x).
Proof.
  induction 1 as [|ops rs x o m x' r HR IH HL HS HT].
  - apply Inv_init.
  - destruct (xstep_cases of m x o IH HL) as (x'' & r' & E & HC).
    rewrite HS in E. inversion E; subst x'' r'. destruct r as [y|].
    + destruct HC as [HC _]. destruct (step_ok _ _ IH HL) as (s' & y' & E' & I' & _). congruence.
    + destruct HC as [_ HC]. eapply untouched_Inv; eauto. apply HC.
      destruct (is_resize o); auto. exfalso; auto.
Qed.

Lemma explains_snoc (ops : list (op A)) : forall rs t t1 o r t2,
  explains t ops rs t1 ->
  explains t1 [o] [r] t2 -> explains t (ops ++ [o]) (rs ++ [r]) t2.
Proof.
  induction ops as [|o1 ops IH]; intros [|r1 rs] t t1 o r t2 H1 H2; simpl in H1; try contradiction.
  - subst. exact H2.
  - destruct r1 as [y|]; simpl.
    + destruct H1 as (t' & E & H1). exists t'. split; auto. eapply IH; eauto.
    + eapply IH; eauto.
Qed.

Lemma alive_svar s t h :
  seen s = map (option_map Own) t -> alive s h -> exists l, svar t h = Some l.
Proof.
  intros HS (b & Hb). rewrite HS, nth_error_map in Hb. unfold svar.
  destruct (nth_error t h) as [[l|]|]; simpl in Hb; try discriminate. eauto.
Qed.

(* a legal operation on memory of our own is one the specification accepts *)
Lemma legal_sstep s t o :
  seen s = map (option_map Own) t -> is_foreign o = false -> legal s o ->
  exists t' y, sstep t o = Some (t', y).
Proof.
  intros HS HF HL.
  assert (Hsz : forall h i, (exists b, nth_error (seen s) h = Some (Some b) /\ i < bsize b) ->
    exists l, svar t h = Some l /\ i < length l).
  { intros h i (b & Hb & Hi). rewrite HS, nth_error_map in Hb. unfold svar.
    destruct (nth_error t h) as [[l|]|]; simpl in Hb; try discriminate.
    inversion Hb; subst. eauto. }
  destruct o as [l| |f n|h|h g|h i v|h i|h|h l|h|f i v]; simpl in *; try discriminate; eauto.
  - destruct (alive_svar _ _ _ HS HL) as [l ->]. eauto.
  - destruct HL as [H1 H2]. destruct (alive_svar _ _ _ HS H1) as [l ->].
    destruct (alive_svar _ _ _ HS H2) as [l' ->]. eauto.
  - destruct (Hsz _ _ HL) as (l & -> & Hi). apply Nat.ltb_lt in Hi. rewrite Hi. eauto.
  - destruct (Hsz _ _ HL) as (l & -> & Hi).
    destruct (nth_error l i) as [v|] eqn:E; eauto. apply nth_error_None in E. lia.
  - destruct (alive_svar _ _ _ HS HL) as [l ->]. eauto.
  - destruct (alive_svar _ _ _ HS HL) as [l' ->]. eauto.
  - destruct (alive_svar _ _ _ HS HL) as [l ->]. eauto.
Qed.

End L.

(* C85, first part.  However many operations ran out of memory before, as long
   as none of them was a resize: every operation returns or throws (never
   touches released memory); if it returns, it did exactly what it does with
   plenty of memory; it throws only if memory ran out; and if it throws (and is
   not a resize) every vector, object, reference count and buffer of the caller
   is as before, at most one array being lost. *)
Theorem C85_out_of_memory_does_nothing_partial :
  forall (A : Type) (of : bool) (bufs : list (list A)) ops rs (x : xstate A),
    xreach of (xinit bufs) ops rs x ->
    forall o m, legal (st x) o ->
    exists x' r, xstep of m x o = Ok (x', r) /\
      match r with
      | Done y => step (st x) o = Ok (st x', y) /\ leaked x' = leaked x
      | Threw =>
        (for_array m = false \/ for_object m = false) /\
        (is_resize o = false ->
         heap (st x') = heap (st x) /\ ext (st x') = ext (st x) /\
         vars (st x') = vars (st x) ++ (if declares o then [None] else []) /\
         exists lost, leaked x' = leaked x ++ lost /\ length lost <= 1)
      end.
Proof.
  intros A of bufs ops rs x HR o m HL.
  destruct (xstep_cases of m x o (xreach_Inv _ _ _ _ _ HR) HL) as (x' & r & E & HC).
  exists x', r. split; auto. destruct r as [y|]; auto. destruct HC as [H1 H2].
  split; [destruct (for_array m); auto|]. intros HZ. destruct (H2 HZ) as [Hs Hl].
  rewrite Hs. destruct (declares o); simpl; rewrite ?app_nil_r; auto.
Qed.
Print Assumptions C85_out_of_memory_does_nothing_partial.

(* C85, second part: reference counts stay exact and, when all variables are
   gone, no object is left. *)
Theorem C85_reference_counts_exact_partial :
  forall (A : Type) (of : bool) (bufs : list (list A)) ops rs (x : xstate A),
    xreach of (xinit bufs) ops rs x ->
    (forall h a, nth_error (vars (st x)) h = Some (Some a) ->
       ref_count (st x) h = Ok (nrefs (vars (st x)) a) /\ (1 <= nrefs (vars (st x)) a)%Z) /\
    (forall a p, nth_error (heap (st x)) a = Some (Some p) ->
       exists h, nth_error (vars (st x)) h = Some (Some a)) /\
    (Forall (fun v => v = None) (vars (st x)) -> Forall (fun b => b = None) (heap (st x))) /\
    length (leaked x) <= count_occ Bool.bool_dec (map (fun r => match r with Threw => true | _ => false end) rs) true.
Proof.
  intros A of bufs ops rs x HR. assert (HI := xreach_Inv _ _ _ _ _ HR).
  split; [|split; [|split]].
  - intros h a E. destruct (Inv_var _ _ _ HI E) as (p & Hp & Hc & _).
    split; [|eapply nrefs_pos; eauto].
    unfold ref_count. rewrite (var_ok _ _ _ E). cbn [bind]. rewrite (get_ok _ _ _ Hp).
    cbn [bind]. congruence.
  - intros a p Hp. destruct (inv_cnt _ _ HI _ _ Hp) as [_ H].
    unfold nrefs in H. assert (Hin : In (Some a) (vars (st x))).
    { apply (count_occ_In odec). lia. }
    apply In_nth_error in Hin. exact Hin.
  - intros HV. apply Forall_forall. intros [p|] Hin; auto.
    apply In_nth_error in Hin. destruct Hin as [a Ha].
    destruct (inv_cnt _ _ HI _ _ Ha) as [_ H]. exfalso.
    assert (Hin : In (Some a) (vars (st x))).
    { apply (count_occ_In odec). unfold nrefs in H. lia. }
    rewrite Forall_forall in HV. specialize (HV _ Hin). discriminate.
  - clear HI. induction HR as [|ops rs x o m x' r HR IH HL HS HT]; [simpl; lia|].
    destruct (xstep_cases of m x o (xreach_Inv _ _ _ _ _ HR) HL) as (x'' & r' & E & HC).
    rewrite HS in E. inversion E; subst x'' r'. rewrite map_app, count_occ_app.
    destruct r as [y|]; simpl in *.
    + destruct HC as [_ ->]. destruct (Bool.bool_dec false true); try discriminate. lia.
    + destruct HC as [_ HC]. destruct HC as [_ (lost & -> & Hl)].
      { destruct (is_resize o); auto. exfalso; auto. }
      rewrite app_length. lia.
Qed.
Print Assumptions C85_reference_counts_exact_partial.

(* C85, third part, in terms of values: what the program observed and what its
   variables hold at the end is what it would be if the operations that threw
   had been left out. *)
Theorem C85_values_partial :
  forall (A : Type) (of : bool) (bufs : list (list A)) ops rs (x : xstate A),
    xreach of (xinit bufs) ops rs x ->
    forallb (fun o => negb (is_foreign o)) ops = true ->
    exists t, explains [] ops rs t /\ seen (st x) = map (option_map Own) t /\
              ext (st x) = map Some bufs.
Proof.
  intros A of bufs ops rs x HR. induction HR as [|ops rs x o m x' r HR IH HL HS HT]; intros HF.
  - exists []. simpl. auto.
  - rewrite forallb_app in HF. apply andb_true_iff in HF. destruct HF as [HF1 HF2].
    simpl in HF2. rewrite andb_true_r in HF2. apply negb_true_iff in HF2.
    destruct (IH HF1) as (t & Ht & Hs & Hx).
    assert (HI := xreach_Inv _ _ _ _ _ HR).
    destruct (xstep_cases of m x o HI HL) as (x'' & r' & E & HC).
    rewrite HS in E. inversion E; subst x'' r'. destruct r as [y|].
    + destruct HC as [HC _].
      destruct (legal_sstep _ _ _ Hs HF2 HL) as (t' & y' & Et).
      destruct (sim_step (st x) t o t' y' (conj HI Hs) Et) as (s' & Es & [_ Hs'] & Hx').
      rewrite HC in Es. inversion Es; subst. exists t'. split; [|split; congruence].
      eapply explains_snoc; eauto. simpl. eauto.
    + destruct HC as [_ HC]. destruct HC as [HC _].
      { destruct (is_resize o); auto. exfalso; auto. }
      exists (if declares o then t ++ [None] else t). split; [|split].
      * eapply explains_snoc; eauto. simpl. reflexivity.
      * rewrite HC. destruct (declares o); auto. rewrite no_var_seen, Hs, map_app. reflexivity.
      * rewrite HC. destruct (declares o); auto.
Qed.
Print Assumptions C85_values_partial.

(* Copying, assigning, reading, measuring and destroying vectors need no memory
   and never throw; nor does writing through the only variable on its data. *)
Theorem C85_never_throws :
  forall (A : Type) (of : bool) (m : room) (x x' : xstate A) o r,
    xstep of m x o = Ok (x', r) ->
    match o with
    | OCopy _ | OAssign _ _ | ORead _ _ | OSize _ | ODestroy _ | OPoke _ _ _ => r <> Threw
    | OWrite h _ _ => ref_count (st x) h = Ok 1%Z -> r <> Threw
    | _ => True
    end.
Proof.
  intros A of m x x' o r E. destruct o as [l| |f n|h|h g|h i v|h i|h|h l|h|f i v]; auto;
    try (unfold xstep in E; destruct (step (st x) _) as [[s1 y]| | |]; cbn [bind] in E;
         try discriminate; inversion E; subst; discriminate).
  unfold ref_count. cbn [xstep] in E. unfold xappropriate in E.
  destruct (var (st x) h) as [a| | |] eqn:Ea; cbn [bind] in *; try discriminate.
  destruct (get (st x) a) as [p| | |] eqn:Ep; cbn [bind] in *; try discriminate.
  intros H. inversion H as [Hp]. rewrite Hp in E. simpl in E. rewrite Ea in E. simpl in E.
  destruct (store (st x) a i v) as [s3| | |]; simpl in E; try discriminate.
  inversion E; subst; discriminate.
Qed.
Print Assumptions C85_never_throws.

(* With plenty of memory the model is that of C01-C03. *)
Theorem C85_plenty :
  forall (A : Type) (of : bool) (x : xstate A) o,
    xstep of (mkR true true) x o =
    ('(s, y) <- step (st x) o ;; Ok (mkX s (leaked x), Done y)).
Proof.
  intros A of x o. destruct o as [l| |f n|h|h g|h i v|h i|h|h l|h|f i v]; try reflexivity.
  - cbn [xstep step]. destruct (nth_error (ext (st x)) f) as [[l|]|]; try reflexivity.
    destruct (n <=? length l); reflexivity.
  - cbn [xstep step]. unfold xappropriate, appropriate, clone.
    destruct (var (st x) h) as [a| | |] eqn:Ea; cbn [bind]; try reflexivity.
    destruct (get (st x) a) as [p| | |] eqn:Ep; cbn [bind]; try reflexivity.
    destruct (1 <? prefs p)%Z; cbn [bind].
    + destruct (contents (st x) (pbuf p)) as [l| | |]; cbn [bind]; try reflexivity.
      cbn [new_clone for_array for_object new_pointer].
      destruct (dereference _ a) as [s2| | |]; cbn [bind]; try reflexivity.
      destruct (var (set_var s2 h _) h) as [a2| | |]; cbn [bind]; try reflexivity.
      destruct (store _ a2 i v) as [s3| | |]; reflexivity.
    + rewrite Ea. cbn [bind]. destruct (store _ a i v) as [s3| | |]; reflexivity.
  - cbn [xstep step].
    destruct (var (st x) h) as [a| | |]; cbn [bind]; try reflexivity.
    destruct (dereference (st x) a) as [s2| | |]; reflexivity.
Qed.
Print Assumptions C85_plenty.

(* C85 fails for resize: whatever came before, if it throws on a vector that
   shares its data with no other, the vector refers to released memory: to
   read it, write it, copy it, resize it or destroy it is undefined. *)
Theorem C85_failed_resize_refuted :
  forall (A : Type) (of : bool) (bufs : list (list A)) ops rs (x : xstate A) h l m,
    xreach of (xinit bufs) ops rs x -> alive (st x) h -> ref_count (st x) h = Ok 1%Z ->
    for_array m = false ->
    exists x', xstep of m x (OResize h l) = Ok (x', Threw) /\
      forall m' i v l', xstep of m' x' (ODestroy h) = UB /\ xstep of m' x' (ORead h i) = UB /\
        xstep of m' x' (OWrite h i v) = UB /\ xstep of m' x' (OCopy h) = UB /\
        xstep of m' x' (OSize h) = UB /\ xstep of m' x' (OResize h l') = UB.
Proof.
  intros A of bufs ops rs x h l m HR (b & Hb) HC Hm.
  assert (HI := xreach_Inv _ _ _ _ _ HR).
  destruct (seen_inv _ _ _ Hb) as (a & p & Hv & Hp & _).
  unfold ref_count in HC. rewrite (var_ok _ _ _ Hv) in HC. cbn [bind] in HC.
  rewrite (get_ok _ _ _ Hp) in HC. cbn [bind] in HC. injection HC as Hr.
  assert (Hlt := nth_error_lt_inv _ _ _ Hp).
  assert (Hg : get (delete_pointer (st x) a p) a = UB).
  { unfold get, delete_pointer; cbn [heap]. rewrite nth_error_upd_eq; auto. }
  assert (Hv' : var (delete_pointer (st x) a p) h = Ok a).
  { apply var_ok. exact Hv. }
  eexists. split.
  - cbn [xstep]. rewrite (var_ok _ _ _ Hv). cbn [bind]. unfold dereference at 1.
    rewrite (get_ok _ _ _ Hp). cbn [bind]. rewrite Hr. cbn [bind Z.sub Z.leb Z.add Z.opp Z.compare Z.pos_sub].
    unfold new_vector. rewrite Hm. cbn [andb]. reflexivity.
  - intros m' i v l'. cbn [xstep step st].
    unfold xappropriate, reference, dereference. rewrite !Hv'. cbn [bind]. rewrite Hg. repeat split; reflexivity.
Qed.
Print Assumptions C85_failed_resize_refuted.

(* ... and on a vector that does share its data, copies stop being independent:
   the count is one too low, so a write through one of two variables is seen
   through the other. *)
Theorem C85_failed_resize_shared_refuted :
  forall of : bool, exists x,
    xrun of (xinit []) [(ONew [7;8], mkR true true); (OCopy 0, mkR true true);
                        (OResize 0 [1;2;3], mkR false true); (OWrite 1 0 5, mkR true true);
                        (ORead 0 0, mkR true true)]
    = Ok (x, [Done ONone; Done ONone; Threw; Done ONone; Done (OVal 5)]) /\
    xrun of x [(ODestroy 0, mkR true true); (ODestroy 1, mkR true true)] = UB.
Proof. intros of. eexists. split; reflexivity. Qed.
Print Assumptions C85_failed_resize_shared_refuted.

(* Non-vacuity: two variables share their data, a write runs out of memory
   after its array was allocated, a constructor runs out of memory, then the
   write succeeds. *)
Example C85_nonvacuous :
  forall of : bool, exists x, xreach (A := nat) of (xinit [])
    [ONew [7;8]; OCopy 0; OWrite 1 0 5; ONew [1]; OWrite 1 0 6]
    [Done ONone; Done ONone; Threw; Threw; Done ONone] x /\
    seen (st x) = [Some (Own [7;8]); Some (Own [6;8]); None] /\ leaked x = [[7;8]].
Proof.
  intros of. eexists. split.
  - eapply (xreach_step of _ [_;_;_;_] [_;_;_;_] _ _ (mkR true true)).
    + eapply (xreach_step of _ [_;_;_] [_;_;_] _ _ (mkR false true)).
      * eapply (xreach_step of _ [_;_] [_;_] _ _ (mkR true false)).
        -- eapply (xreach_step of _ [_] [_] _ _ (mkR true true)).
           ++ eapply (xreach_step of _ [] [] _ _ (mkR true true)); [apply xreach_nil|exact I|reflexivity|].
              intros [H _]; discriminate H.
           ++ eexists; reflexivity.
           ++ reflexivity.
           ++ intros [H _]; discriminate H.
        -- eexists. split; [reflexivity|]. simpl; lia.
        -- reflexivity.
        -- intros [H _]; discriminate H.
      * exact I.
      * reflexivity.
      * intros [H _]; discriminate H.
    + eexists. split; [reflexivity|]. simpl; lia.
    + reflexivity.
    + intros [_ H]; discriminate H.
  - split; reflexivity.
Qed.
