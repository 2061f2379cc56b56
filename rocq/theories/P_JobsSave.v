(* C80: what a job saves with dump_variables() is what get_value() says, and a
   loop over the jobs leaves a complete record of them. *)
From Verif Require Import Base Spec S_Reduce L_Lin M_Jobs S_Jobs L_Jobs P_Jobs.
From Verif Require Import S_Sdf M_Sdf L_Sdf L_Sdf2 P_Sdf M_JobsSave.
Local Open Scope nat_scope.

(* a name that a record can hold: at most 63 characters, none of them NUL *)
Definition saved_name (s : string) : Prop := String.length s <= 63 /\ ~ In "000"%char (list_ascii_of_string s).
Lemma codes_len s : List.length (codes s) = String.length s.
Proof. unfold codes. rewrite map_length. induction s; cbn; auto. Qed.
Lemma saved_ok s : saved_name s -> ok_name (codes s).
Proof.
  intros [H1 H2]. split; [rewrite codes_len; auto|]. unfold codes. apply Forall_forall. intros c Hc. apply in_map_iff in Hc as (a & <- & Ha).
  pose proof (nat_ascii_bounded a) as B. unfold is_byte. split; [lia|]. intros E. apply H2.
  assert (Ea : nat_of_ascii a = 0) by lia. rewrite <- (ascii_nat_embedding a), Ea in Ha. exact Ha.
Qed.

(* the states of a loop *)
Lemma visits_states V atof atoi linspace file prog ds (vars : list (variable V)) states :
  ~ In prog option_names -> defines atof atoi linspace ds vars ->
  visits atof atoi linspace file (prog :: variable_args ds) states ->
  0 < total vars /\ states = map (state vars (Some 0%Z) (Some (Z.of_nat (total vars) - 1)%Z)) (seq 0 (total vars)).
Proof.
  intros Hp Hd (j0 & E0 & F & HF). assert (Hv := defines_values _ _ _ _ _ Hd). pose proof (total_pos vars Hv) as Hpos.
  rewrite (start_all atof atoi linspace file prog ds vars Hp Hd) in E0. inversion E0; subst j0; clear E0.
  pose proof (run_state vars 0%Z (Z.of_nat (total vars) - 1)%Z (total vars) Hv 0 (F + S (total vars))) as R.
  rewrite HF in R by lia. specialize (R ltac:(lia) ltac:(lia) ltac:(lia)). inversion R; subst states. auto.
Qed.
(* and their variables *)
Lemma state_vars V atof atoi linspace file prog ds (vars : list (variable V)) states j :
  ~ In prog option_names -> defines atof atoi linspace ds vars ->
  visits atof atoi linspace file (prog :: variable_args ds) states -> In j states ->
  Forall2 (fun v v' => vname v' = vname v /\ vvalues v' = vvalues v /\ vwhich v' < List.length (vvalues v)) vars (variables j).
Proof.
  intros Hp Hd Hs Hj. destruct (visits_states _ _ _ _ _ _ _ _ _ Hp Hd Hs) as [_ ->].
  apply in_map_iff in Hj as (k & <- & Hk). apply in_seq in Hk. unfold state. cbn [variables].
  set (ws := unlin (sizes vars) k). assert (Hw : valid (sizes vars) ws) by (apply unlin_valid; unfold total in Hk; lia).
  assert (Hl : List.length ws = List.length vars) by (unfold ws; rewrite unlin_len, sizes_len; auto).
  clearbody ws. clear - Hw Hl. revert ws Hw Hl. induction vars as [|v vars IH]; intros [|w ws] Hw Hl; try discriminate; [constructor|].
  inversion Hw; subst. unfold pick in *. cbn [combine map fst snd]. constructor; [cbn [vname vvalues vwhich]; auto|]. apply IH; auto.
Qed.

(* the records of the variables vs with the values ws *)
Definition var_recs (vs : list (variable Z)) (ws : list Z) : list (list Z * value) :=
  map (fun p => (codes (vname (fst p)), VDouble (snd p))) (combine vs ws).
Lemma dump_vars_ok f vs ws s : Forall2 (fun v w => var_value v = Ok w) vs ws -> dump_vars f vs s = dump_all f (var_recs vs ws) s.
Proof.
  intros H. revert s. induction H as [|v w vs ws Hv H IH]; intros s; [reflexivity|].
  cbn [dump_vars var_recs combine map fst snd dump_all]. transitivity (seqp (ret w) (fun x => seqp (dump_to f (codes (vname v), VDouble x)) (fun _ => dump_vars f vs)) s).
  - unfold seqp at 1 3, eval, ret. rewrite Hv. reflexivity.
  - rewrite seqp_ret. apply seqp_ext. intros _ s'. apply IH.
Qed.
Lemma dump_all_app f a b s : dump_all f (a ++ b) s = seqp (dump_all f a) (fun _ => dump_all f b) s.
Proof.
  revert s. induction a as [|r a IH]; intros s; cbn [app dump_all]; [rewrite seqp_ret; reflexivity|]. rewrite seqp_assoc. apply seqp_ext. intros _ s'. apply IH.
Qed.
Lemma job_session_ok m j rs ws s : Forall2 (fun v w => var_value v = Ok w) (variables j) ws ->
  job_session m j rs s = session m (var_recs (variables j) ws ++ rs) s.
Proof.
  intros H. unfold job_session, session. apply seqp_ext. intros f s1. unfold dump_variables.
  transitivity (seqp (seqp (dump_vars f (variables j)) (fun _ => dump_all f rs)) (fun _ => seqp (close_out f) (fun _ => ret tt)) s1).
  { rewrite seqp_assoc. reflexivity. }
  unfold seqp at 1 4. replace (dump_all f (var_recs (variables j) ws ++ rs) s1) with (seqp (dump_vars f (variables j)) (fun _ => dump_all f rs) s1); [reflexivity|].
  rewrite dump_all_app. unfold seqp. rewrite (dump_vars_ok f _ _ _ H). reflexivity.
Qed.
Lemma var_recs_names vs vs' ws : Forall2 (fun v v' : variable Z => vname v' = vname v) vs vs' -> var_recs vs' ws = var_recs vs ws.
Proof. intros H. revert ws. induction H as [|v v' vs vs' Hv H IH]; intros [|w ws]; auto. unfold var_recs in *. cbn. rewrite Hv, IH. reflexivity. Qed.

Lemma Forall2_len {A B} {P : A -> B -> Prop} {l l'} : Forall2 P l l' -> List.length l = List.length l'.
Proof. intros H. induction H; cbn; congruence. Qed.
Lemma forall2_in {A B} (P Q : A -> B -> Prop) l l' : (forall a b, In a l -> P a b -> Q a b) -> Forall2 P l l' -> Forall2 Q l l'.
Proof. intros H F. induction F; constructor; [apply H; [left; auto|auto]|apply IHF; intros; apply H; [right; auto|auto]]. Qed.
Lemma get_value_nodup (j : job Z) ws : NoDup (map vname (variables j)) -> Forall2 (fun v w => var_value v = Ok w) (variables j) ws ->
  Forall2 (fun n w => get_value j n = Ok w) (map vname (variables j)) ws.
Proof.
  unfold get_value, find_variable. generalize (variables j) as vs. intros vs Hn H. induction H as [|v w vs ws Hv H IH]; [constructor|].
  cbn [map] in *. inversion Hn as [|? ? Hi Hn']; subst. constructor.
  - cbn [find]. rewrite String.eqb_refl. exact Hv.
  - specialize (IH Hn'). refine (forall2_in _ _ _ _ _ IH). intros n u Hn0 E. cbn [find].
    assert (N : vname v <> n) by (intros E0; rewrite E0 in Hi; auto). rewrite (proj2 (String.eqb_neq _ _) N). exact E.
Qed.

(* the values of the variables of a state *)
Lemma state_values (vars vs' : list (variable Z)) :
  Forall2 (fun v v' => vname v' = vname v /\ vvalues v' = vvalues v /\ vwhich v' < List.length (vvalues v)) vars vs' ->
  exists ws, Forall2 (fun v w => var_value v = Ok w) vs' ws /\ List.length ws = List.length vars /\
    forall p v w, nth_error vars p = Some v -> nth_error ws p = Some w ->
      exists k, nth_error (map vwhich vs') p = Some k /\ nth_error (vvalues v) k = Some w.
Proof.
  intros F. induction F as [|v v' vars vs' (H1 & H2 & H3) F (ws & G1 & G2 & G3)].
  - exists []. split; [constructor|]. split; [reflexivity|]. intros [|p] v w H; discriminate.
  - destruct (nth_error_lt (vvalues v) (vwhich v') H3) as (x & Hx). exists (x :: ws). split; [|split].
    + constructor; [|exact G1]. unfold var_value. rewrite H2. apply rd_ok, Hx.
    + cbn. rewrite G2. reflexivity.
    + intros [|p] u w Hu Hw; cbn in Hu, Hw.
      * inversion Hu; inversion Hw; subst. exists (vwhich v'). split; [reflexivity|exact Hx].
      * apply (G3 p u w Hu Hw).
Qed.
Lemma var_recs_shape vars ws : List.length ws = List.length vars ->
  map (fun r => kind_of (snd r)) (var_recs vars ws) = map (fun _ => KDouble) vars /\ map snd (var_recs vars ws) = map VDouble ws /\
  Forall2 (fun asked r => asks_for asked (fst r)) (map (fun v => codes (vname v)) vars) (var_recs vars ws).
Proof.
  revert ws. induction vars as [|v vars IH]; intros [|w ws] El; try discriminate; [repeat split; constructor|].
  cbn in El. destruct (IH ws) as (I1 & I2 & I3); [lia|]. unfold var_recs in *. cbn. rewrite I1, I2. split; [auto|]. split; [auto|].
  constructor; [right; reflexivity|exact I3].
Qed.
Lemma var_recs_ok vars ws : Forall (fun v => saved_name (vname v) /\ Forall is_word (vvalues v)) vars ->
  (forall p v w, nth_error vars p = Some v -> nth_error ws p = Some w -> In w (vvalues v)) ->
  Forall (fun r => ok_name (fst r) /\ ok_value (snd r)) (var_recs vars ws).
Proof.
  intros H. revert ws. induction H as [|v vars [H1 H2] H IH]; intros [|w ws] Hi; try constructor.
  - cbn. split; [apply saved_ok; auto|]. rewrite Forall_forall in H2. apply H2, (Hi 0); reflexivity.
  - apply (IH ws). intros p. apply (Hi (S p)).
Qed.
Lemma combine_app {A B} (a a' : list A) (b b' : list B) : List.length a = List.length b -> combine (a ++ a') (b ++ b') = combine a b ++ combine a' b'.
Proof. revert b. induction a as [|x a IH]; intros [|y b] H; try discriminate; [reflexivity|]. cbn in *. rewrite IH by lia. reflexivity. Qed.
Lemma combine_maps {A B C} (f : A -> B) (g : A -> C) l : combine (map f l) (map g l) = map (fun x => (f x, g x)) l.
Proof. induction l; cbn; congruence. Qed.
Lemma forall2_map_l {A B C} (f : A -> B) (P : B -> C -> Prop) l l' : Forall2 P (map f l) l' -> Forall2 (fun a c => P (f a) c) l l'.
Proof. revert l'. induction l as [|a l IH]; intros l' H; inversion H; subst; constructor; auto. Qed.
Lemma same_names vars vs' : Forall2 (fun v v' : variable Z => vname v' = vname v) vars vs' -> map vname vs' = map vname vars.
Proof. intros H. induction H; cbn; congruence. Qed.
(* all about one state *)
Lemma state_all atof atoi linspace files prog ds vars states j :
  ~ In prog option_names -> defines atof atoi linspace ds vars ->
  visits atof atoi linspace files (prog :: variable_args ds) states -> In j states ->
  Forall (fun v => saved_name (vname v) /\ Forall is_word (vvalues v)) vars ->
  exists ws, (forall m rs s, job_session m j rs s = session m (var_recs vars ws ++ rs) s) /\
    Forall (fun r => ok_name (fst r) /\ ok_value (snd r)) (var_recs vars ws) /\
    List.length ws = List.length vars /\
    (forall p v w, nth_error vars p = Some v -> nth_error ws p = Some w ->
       exists k, nth_error (picks j) p = Some k /\ nth_error (vvalues v) k = Some w) /\
    (NoDup (map vname vars) -> Forall2 (fun v w => get_value j (vname v) = Ok w) vars ws).
Proof.
  intros Hp Hd Hs Hj Hv.
  pose proof (state_vars Z _ _ _ _ _ _ _ _ _ Hp Hd Hs Hj) as F. destruct (state_values vars (variables j) F) as (ws & Hw & El & Hn).
  assert (Hnm : Forall2 (fun v v' : variable Z => vname v' = vname v) vars (variables j)) by (eapply forall2_in; [|exact F]; cbn; tauto).
  exists ws. split; [|split; [|split; [|split]]]; auto.
  - intros m rs s. rewrite (job_session_ok m j rs ws s Hw), (var_recs_names _ _ _ Hnm). reflexivity.
  - apply var_recs_ok; [exact Hv|]. intros p v w H1 H2. destruct (Hn p v w H1 H2) as (k & _ & Hk). eapply nth_error_In, Hk.
  - intros Hnd. rewrite <- (same_names _ _ Hnm) in Hnd. pose proof (get_value_nodup j ws Hnd Hw) as G. rewrite (same_names _ _ Hnm) in G.
    apply forall2_map_l in G. exact G.
Qed.

(* ---- C80 ---- *)

(* Any job of a loop saves its variables, and then any other records, in a new
   file: they are loaded back under their names.  The value saved for each
   variable is the one the job has picked, the one get_value() gives when no
   two variables share a name. *)
Theorem C80_job_record : forall junk atof atoi linspace files prog ds vars states j m rs asks s,
  ~ In prog option_names -> defines atof atoi linspace ds vars ->
  visits atof atoi linspace files (prog :: variable_args ds) states -> In j states ->
  Forall (fun v => saved_name (vname v) /\ Forall is_word (vvalues v)) vars ->
  m = Shared /\ main s = None \/ m = Overwrite \/ m = Paranoid ->
  Forall (fun r => ok_name (fst r) /\ ok_value (snd r)) rs ->
  Forall2 (fun asked r => asks_for asked (fst r)) asks rs ->
  exists ws s' tr st tr' st',
    job_session m j rs s = (Ok tt, s', tr) /\ open_in junk Shared s' = (Ok st, s', tr') /\
    load_all junk (map (fun v => (KDouble, codes (vname v))) vars ++ combine (map (fun r => kind_of (snd r)) rs) asks) st =
      Ok (map VDouble ws ++ map snd rs, st') /\ rest st' = [] /\
    List.length ws = List.length vars /\
    (forall p v w, nth_error vars p = Some v -> nth_error ws p = Some w ->
       exists k, nth_error (picks j) p = Some k /\ nth_error (vvalues v) k = Some w) /\
    (NoDup (map vname vars) -> Forall2 (fun v w => get_value j (vname v) = Ok w) vars ws).
Proof.
  intros junk atof atoi linspace files prog ds vars states j m rs asks s Hp Hd Hs Hj Hv Hm Hr Ha.
  destruct (state_all _ _ _ _ _ _ _ _ _ Hp Hd Hs Hj Hv) as (ws & E0 & Hok & El & Hn & Hg).
  destruct (var_recs_shape vars ws El) as (X1 & X2 & X3).
  destruct (C39_round_trip_partial junk m (var_recs vars ws ++ rs) (map (fun v => codes (vname v)) vars ++ asks) s Hm) as (s' & tr & E1 & st & tr' & E2 & st' & E3 & E4 & E5).
  { apply Forall_app. auto. }
  { apply Forall2_app; auto. }
  exists ws, s', tr, st, tr', st'. split; [rewrite E0; exact E1|]. split; [exact E2|]. split; [|auto].
  rewrite map_app, X1, combine_app, combine_maps, map_app, X2 in E3 by (rewrite !map_length; reflexivity). exact E3.
Qed.
Print Assumptions C80_job_record.

(* A whole loop whose jobs append to one new file: it holds the variables of
   every job, in the order of the jobs *)
Theorem C80_whole_run : forall junk atof atoi linspace files prog ds vars states s,
  ~ In prog option_names -> defines atof atoi linspace ds vars ->
  visits atof atoi linspace files (prog :: variable_args ds) states ->
  Forall (fun v => saved_name (vname v) /\ Forall is_word (vvalues v)) vars -> NoDup (map vname vars) ->
  main s = None ->
  exists wss s' tr st tr' st',
    job_sessions Shared states s = (Ok tt, s', tr) /\ open_in junk Shared s' = (Ok st, s', tr') /\
    load_all junk (List.concat (map (fun _ => map (fun v => (KDouble, codes (vname v))) vars) states)) st = Ok (map VDouble (List.concat wss), st') /\
    rest st' = [] /\
    Forall2 (fun j ws => Forall2 (fun v w => get_value j (vname v) = Ok w) vars ws) states wss.
Proof.
  intros junk atof atoi linspace files prog ds vars states s Hp Hd Hs Hv Hnd Hm.
  assert (HN : states <> []).
  { destruct (visits_states _ _ _ _ _ _ _ _ _ Hp Hd Hs) as [Hpos ->]. destruct (total vars); [lia|discriminate]. }
  assert (H : exists wss, (forall m s, job_sessions m states s = sessions m (map (var_recs vars) wss) s) /\
    Forall (fun r => ok_name (fst r) /\ ok_value (snd r)) (List.concat (map (var_recs vars) wss)) /\
    Forall (fun ws => List.length ws = List.length vars) wss /\
    Forall2 (fun j ws => Forall2 (fun v w => get_value j (vname v) = Ok w) vars ws) states wss).
  { assert (Hi : forall j, In j states -> In j states) by auto. revert Hi. generalize states at 1 3 4 as l. induction l as [|j l IH]; intros Hi.
    - exists []. repeat split; constructor.
    - destruct IH as (wss & I1 & I2 & I3 & I4); [intros; apply Hi; right; auto|].
      destruct (state_all _ _ _ _ _ _ _ _ j Hp Hd Hs) as (ws & E0 & Hok & El & _ & Hg); [apply Hi; left; auto|exact Hv|].
      exists (ws :: wss). split; [|split; [|split]].
      + intros m s0. cbn [job_sessions map sessions]. transitivity (seqp (session m (var_recs vars ws)) (fun _ => job_sessions m l) s0).
        * unfold seqp. rewrite E0, app_nil_r. reflexivity.
        * apply seqp_ext. intros _ s1. apply I1.
      + cbn. apply Forall_app. auto.
      + constructor; auto.
      + constructor; auto. }
  destruct H as (wss & H1 & H2 & H3 & H4). assert (El := Forall2_len H4).
  assert (Hshape : map (fun r => kind_of (snd r)) (List.concat (map (var_recs vars) wss)) = List.concat (map (fun _ => map (fun _ => KDouble) vars) states) /\
    map snd (List.concat (map (var_recs vars) wss)) = map VDouble (List.concat wss) /\
    Forall2 (fun asked r => asks_for asked (fst r)) (List.concat (map (fun _ => map (fun v => codes (vname v)) vars) states)) (List.concat (map (var_recs vars) wss))).
  { clear - El H3. revert wss El H3. generalize states as l. induction l as [|j l IH]; intros [|ws wss] El H3; try discriminate; [repeat split; constructor|].
    inversion H3; subst. destruct (IH wss) as (I1 & I2 & I3); [cbn in El; lia|auto|]. destruct (var_recs_shape vars ws) as (X1 & X2 & X3); auto.
    cbn [map List.concat]. rewrite !map_app, X1, X2, I1, I2. split; [auto|]. split; [auto|]. apply Forall2_app; auto. }
  destruct Hshape as (X1 & X2 & X3).
  destruct (C42_read_back junk (map (var_recs vars) wss) s (List.concat (map (fun _ => map (fun v => codes (vname v)) vars) states)) Hm) as (s' & tr & st & tr' & st' & E1 & E2 & E3 & E4); auto.
  { destruct wss; [destruct states; [contradiction|discriminate]|discriminate]. }
  exists wss, s', tr, st, tr', st'. split; [rewrite H1; exact E1|]. split; [exact E2|]. split; [|auto].
  rewrite X1, X2 in E3. rewrite <- E3. f_equal. clear. induction states as [|j l IH]; [reflexivity|]. cbn [map List.concat].
  rewrite combine_app by (rewrite !map_length; reflexivity). rewrite combine_maps, <- IH. reflexivity.
Qed.
Print Assumptions C80_whole_run.

(* A name of more than 63 characters is cut: the variable cannot be loaded
   under its name *)
Theorem C80_long_name_refuted : forall junk v vs j m rs s,
  variables j = v :: vs -> Forall (fun v => vwhich v < List.length (vvalues v)) (variables j) -> 63 < String.length (vname v) ->
  m = Shared /\ main s = None \/ m = Overwrite \/ m = Paranoid ->
  exists s' tr st tr', job_session m j rs s = (Ok tt, s', tr) /\ open_in junk Shared s' = (Ok st, s', tr') /\
    load junk KDouble (codes (vname v)) st = Abort.
Proof.
  intros junk v vs j m rs s Ev Hw Hl Hm.
  destruct (state_values (variables j) (variables j)) as (ws & Hws & El & _).
  { clear - Hw. induction Hw; constructor; auto. }
  rewrite Ev in El. destruct ws as [|w ws]; [discriminate|].
  assert (Hs : exists t tr, session m (var_recs (variables j) (w :: ws) ++ rs) s = (Ok tt, mkFS (Some (header ++ records (var_recs (variables j) (w :: ws) ++ rs))) t, tr)).
  { destruct Hm as [[-> Hm]|[->| ->]].
    - destruct (session_shared (var_recs (variables j) (w :: ws) ++ rs) s) as (tr & E). rewrite Hm in E. eauto.
    - destruct (session_overwrite (var_recs (variables j) (w :: ws) ++ rs) s) as (tr & E). eauto.
    - destruct (session_paranoid (var_recs (variables j) (w :: ws) ++ rs) s) as (tr & E & _). eauto. }
  destruct Hs as (t & tr & E). eexists _, _, _, _. split; [rewrite (job_session_ok m j rs _ s Hws); exact E|]. split; [apply open_in_ok|].
  rewrite Ev. unfold var_recs. cbn [combine map fst snd app]. unfold records. cbn [flat_map fst snd]. rewrite concat_app.
  apply load_reject. left. assert (N := codes_len (vname v)). split.
  - intros E0. rewrite E0 in N. cbn in N. lia.
  - intros E0. assert (B : List.length (kept (codes (vname v))) <= 63).
    { unfold kept. transitivity (List.length (firstn 63 (codes (vname v)))); [|rewrite firstn_length; lia].
      generalize (firstn 63 (codes (vname v))) as l. clear. induction l as [|c l IH]; cbn; [lia|]. destruct (c =? 0)%Z; cbn; lia. }
    rewrite <- E0 in B. lia.
Qed.
Print Assumptions C80_long_name_refuted.

(* two variables, six jobs *)
Example C80_meets :
  ~ In "prog"%string option_names /\
  defines ex_atoi ex_atoi ex_linspace ["x,1,3,3"; " yy 7;8	2 "]%string ex_vars /\
  (exists states, visits ex_atoi ex_atoi ex_linspace (fun _ => []) ("prog" :: variable_args ["x,1,3,3"; " yy 7;8	2 "])%string states /\ List.length states = 6) /\
  Forall (fun v => saved_name (vname v) /\ Forall is_word (vvalues v)) ex_vars /\ NoDup (map vname ex_vars).
Proof.
  assert (Hp : ~ In "prog"%string option_names) by (cbn; intuition discriminate). destruct C45_nonvacuous as [Hd _].
  split; [exact Hp|]. split; [exact Hd|]. split; [|split].
  - destruct (C45_enumeration Z ex_atoi ex_atoi ex_linspace (fun _ => []) "prog"%string _ _ Hp Hd) as (states & Hs & _).
    exists states. split; [exact Hs|]. destruct (visits_states _ _ _ _ _ _ _ _ _ Hp Hd Hs) as [_ ->]. reflexivity.
  - unfold ex_vars. repeat (apply Forall_cons; [split; [split; [cbn; lia|cbn; intuition discriminate]|cbn; repeat (apply Forall_cons; [unfold is_word; lia|]); apply Forall_nil]|]). apply Forall_nil.
  - cbn. constructor; [cbn; intuition discriminate|]. constructor; [cbn; tauto|constructor].
Qed.
Example C80_long_name_meets :
  let v := mkVar (String.concat "" (repeat "abcdefgh" 8))%string [5; 6]%Z 1 in
  63 < String.length (vname v) /\ vwhich v < List.length (vvalues v).
Proof. vm_compute. lia. Qed.
