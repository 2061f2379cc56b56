(* Proofs about jobs and flags. *)
From Verif Require Import Base Spec L_Lin M_Jobs S_Jobs.
Local Open Scope string_scope.
Local Open Scope list_scope.
Local Open Scope nat_scope.

(* ---- splitting ---- *)

Lemma sep_iff c : is_separator c = true <-> In c separators.
Proof.
  unfold is_separator, separators. rewrite !orb_true_iff, !Ascii.eqb_eq. cbn. intuition congruence.
Qed.
Lemma sep_false c : is_separator c = false <-> ~ In c separators.
Proof. rewrite <- sep_iff. destruct (is_separator c); intuition congruence. Qed.
Lemma skip_ok seps s : Forall (fun c => In c separators) seps -> skip_separators (seps ++ s) = skip_separators s.
Proof. induction 1 as [|c l H _ IH]; [reflexivity|]. cbn. rewrite (proj2 (sep_iff c)) by auto. exact IH. Qed.
Lemma skip_all seps : Forall (fun c => In c separators) seps -> skip_separators seps = [].
Proof. intros H. rewrite <- (app_nil_r seps). rewrite skip_ok by auto. reflexivity. Qed.
Lemma word_end_ok w rest : Forall (fun c => ~ In c separators) w -> (rest = [] \/ exists c r, rest = c :: r /\ In c separators) ->
  word_end (w ++ rest) = (w, rest).
Proof.
  intros H Hr. induction H as [|c l Hc _ IH]; cbn.
  - destruct Hr as [->|(c & r & -> & Hc)]; [reflexivity|]. cbn. rewrite (proj2 (sep_iff c)) by auto. reflexivity.
  - rewrite (proj2 (sep_false c)) by auto. rewrite IH. reflexivity.
Qed.
Lemma split_loop_ok l ws : words_of l ws -> forall fuel, List.length l <= fuel -> split_loop fuel l = map string_of_list_ascii ws.
Proof.
  induction 1 as [seps Hs|seps w rest ws Hs Hw Hn Hr H IH]; intros fuel Hf.
  - destruct fuel as [|fuel]; [reflexivity|]. cbn [split_loop]. rewrite skip_all by auto. reflexivity.
  - rewrite !app_length in Hf. destruct w as [|c w]; [contradiction|]. cbn [List.length] in Hf. destruct fuel as [|fuel]; [lia|].
    cbn [split_loop]. rewrite skip_ok by auto. inversion Hn as [|? ? Hc Hn']; subst. cbn [app skip_separators].
    rewrite (proj2 (sep_false c)) by auto. rewrite word_end_ok by auto. cbn [map]. f_equal. apply IH. lia.
Qed.
Lemma split_string_ok s ws : line_words s ws -> split_string s = ws.
Proof.
  intros H. unfold split_string. rewrite (split_loop_ok _ _ H) by lia. rewrite map_map.
  rewrite <- (map_id ws) at 2. apply map_ext. apply string_of_list_ascii_of_string.
Qed.
(* every line has words *)
Lemma split_exists l : exists ws, words_of l ws.
Proof.
  assert (G : forall n l, List.length l <= n -> exists ws, words_of l ws).
  { clear. induction n as [|n IH]; intros l Hl.
    - destruct l; [|cbn in Hl; lia]. exists []. constructor. constructor.
    - assert (Hs : exists seps s, l = seps ++ s /\ Forall (fun c => In c separators) seps /\ (s = [] \/ exists c r, s = c :: r /\ ~ In c separators)).
      { clear. induction l as [|c l IH]; [exists [], []; auto|]. destruct (is_separator c) eqn:E.
        - destruct IH as (seps & s & -> & H1 & H2). exists (c :: seps), s. split; [reflexivity|]. split; auto. constructor; auto. apply sep_iff; auto.
        - exists [], (c :: l). split; [reflexivity|]. split; auto. right. exists c, l. split; auto. apply sep_false; auto. }
      destruct Hs as (seps & s & -> & H1 & [->|(c & r & -> & Hc)]).
      { exists []. rewrite app_nil_r. constructor; auto. }
      assert (Hw : exists w rest, c :: r = (c :: w) ++ rest /\ Forall (fun c => ~ In c separators) w /\ (rest = [] \/ exists c r, rest = c :: r /\ In c separators)).
      { clear. induction r as [|d r IH]; [exists [], []; auto|]. destruct (is_separator d) eqn:E.
        - exists [], (d :: r). split; [reflexivity|]. split; auto. right. exists d, r. split; auto. apply sep_iff; auto.
        - destruct IH as (w & rest & H & H1 & H2). exists (d :: w), rest. split; [cbn in *; congruence|]. split; auto. constructor; auto. apply sep_false; auto. }
      destruct Hw as (w & rest & E & Hw & Hr). rewrite E. destruct (IH rest) as (ws & Hws).
      { apply (f_equal (@List.length _)) in E. rewrite app_length in Hl. rewrite app_length in E. cbn in E, Hl. lia. }
      exists ((c :: w) :: ws). apply one_word; auto. discriminate. }
  apply (G _ l (le_n _)).
Qed.
Lemma line_words_exists s : exists ws, line_words s ws.
Proof.
  destruct (split_exists (list_ascii_of_string s)) as (ws & H). exists (map string_of_list_ascii ws). unfold line_words.
  rewrite map_map. replace (map _ ws) with ws; [exact H|]. rewrite <- (map_id ws) at 1. apply map_ext. intros. symmetry. apply list_ascii_of_string_of_list_ascii.
Qed.

(* ---- selecting ---- *)

Section Select.
Context {V : Type}.

Definition pick (vars : list (variable V)) (ws : list nat) : list (variable V) :=
  map (fun p => mkVar (vname (fst p)) (vvalues (fst p)) (snd p)) (combine vars ws).
Definition total (vars : list (variable V)) : nat := prod (sizes vars).

Lemma number_ok vars : compute_number_of_jobs vars = Z.of_nat (total vars).
Proof.
  unfold compute_number_of_jobs, total. assert (G : forall a, fold_left (fun n v => n * Z.of_nat (List.length (vvalues v)))%Z vars a = (a * Z.of_nat (prod (sizes vars)))%Z).
  { induction vars as [|v vars IH]; intros a; cbn [fold_left sizes map]; [unfold prod; cbn; lia|]. rewrite IH.
    fold (sizes vars). rewrite prod_cons. lia. }
  rewrite G. lia.
Qed.
Lemma select_ok vars k : Forall (fun v : variable V => vvalues v <> []) vars ->
  select_loop vars (Z.of_nat k) = Ok (pick vars (unlin (sizes vars) k)).
Proof.
  intros H. revert k. induction H as [|v vars Hv _ IH]; intros k; [reflexivity|]. cbn [select_loop sizes map unlin].
  set (n := List.length (vvalues v)). assert (n <> 0) by (unfold n; destruct (vvalues v); [contradiction|discriminate]).
  replace (Z.of_nat n =? 0)%Z with false by lia.
  rewrite Z.quot_div_nonneg, Z.rem_mod_nonneg by lia. rewrite <- Nat2Z.inj_div, <- Nat2Z.inj_mod. rewrite IH. cbn [bind].
  rewrite Nat2Z.id. reflexivity.
Qed.
Lemma pick_sizes vars ws : List.length ws = List.length vars -> sizes (pick vars ws) = sizes vars.
Proof.
  revert ws. induction vars as [|v vars IH]; intros [|w ws] H; cbn in *; try discriminate; auto.
  unfold pick, sizes in *. cbn. f_equal. apply IH. lia.
Qed.
Lemma pick_pick vars ws ws' : List.length ws = List.length vars -> pick (pick vars ws) ws' = pick vars ws'.
Proof.
  revert ws ws'. induction vars as [|v vars IH]; intros [|w ws] [|w' ws'] H; cbn in *; try discriminate; auto.
  unfold pick in *. cbn. f_equal. apply IH. lia.
Qed.
Lemma pick_values vars ws : List.length ws = List.length vars -> Forall (fun v : variable V => vvalues v <> []) vars -> Forall (fun v => vvalues v <> []) (pick vars ws).
Proof.
  intros Hl H. revert ws Hl. induction H as [|v vars Hv H IH]; intros [|w ws] Hl; cbn in *; try discriminate; [constructor|].
  unfold pick in *. cbn. constructor; auto.
Qed.
Lemma pick_which vars ws : List.length ws = List.length vars -> map vwhich (pick vars ws) = ws.
Proof.
  revert ws. induction vars as [|v vars IH]; intros [|w ws] H; cbn in *; try discriminate; auto. unfold pick in *. cbn. f_equal. apply IH. lia.
Qed.
Lemma unlin_len ds q : List.length (unlin ds q) = List.length ds.
Proof. revert q. induction ds as [|d ds IH]; intros q; cbn; auto. Qed.
Lemma sizes_len (vars : list (variable V)) : List.length (sizes vars) = List.length vars.
Proof. apply map_length. Qed.

(* the state of job k *)
Definition state (vars : list (variable V)) (f l : option Z) (k : nat) : job V :=
  mkJob (pick vars (unlin (sizes vars) k)) (Z.of_nat (total vars)) (Z.of_nat k) f l.

Lemma select_state vars f l this k : Forall (fun v => vvalues v <> []) vars -> k <= total vars ->
  select_job (Z.of_nat k) (mkJob vars (Z.of_nat (total vars)) this f l) = Ok (state vars f l k).
Proof.
  intros Hv Hk. unfold select_job. replace (0 <=? Z.of_nat k)%Z with true by lia. cbn [assert_ bind variables number_of_jobs first_job last_job].
  replace (Z.of_nat k <=? Z.of_nat (total vars))%Z with true by lia. rewrite select_ok by auto. reflexivity.
Qed.
Lemma select_stateZ vars f l this c : Forall (fun v => vvalues v <> []) vars -> (0 <= c <= Z.of_nat (total vars))%Z ->
  select_job c (mkJob vars (Z.of_nat (total vars)) this f l) = Ok (state vars f l (Z.to_nat c)).
Proof. intros Hv Hc. rewrite <- select_state with (this := this) by (auto; lia). f_equal. lia. Qed.
Lemma next_state vars f l k : Forall (fun v => vvalues v <> []) vars -> k < total vars ->
  next_job (state vars f l k) = Ok (state vars f l (S k)).
Proof.
  intros Hv Hk. unfold next_job, state at 1. cbn [this_job]. replace (Z.of_nat k + 1)%Z with (Z.of_nat (S k)) by lia.
  assert (Hl : List.length (unlin (sizes vars) k) = List.length vars) by (rewrite unlin_len, sizes_len; auto).
  unfold state at 1. replace (total vars) with (total (pick vars (unlin (sizes vars) k))) by (unfold total; rewrite pick_sizes; auto).
  rewrite select_state; [|apply pick_values; auto|unfold total in *; rewrite pick_sizes; auto].
  unfold state. rewrite pick_sizes by auto. rewrite pick_pick by auto. unfold total. rewrite pick_sizes by auto. reflexivity.
Qed.
Lemma run_state vars f l d : Forall (fun v => vvalues v <> []) vars ->
  forall k fuel, (0 <= f <= Z.of_nat k)%Z -> d = Z.to_nat (Z.min (l + 1) (Z.of_nat (total vars)) - Z.of_nat k) -> d < fuel ->
  run fuel (state vars (Some f) (Some l) k) = Ok (map (state vars (Some f) (Some l)) (seq k d)).
Proof.
  intros Hv. induction d as [|d IH]; intros k fuel Hf Hd Hfu; (destruct fuel as [|fuel]; [lia|]); cbn [run].
  - assert (Et : to_do (state vars (Some f) (Some l) k) = Ok false).
    { unfold to_do, state. cbn [this_job number_of_jobs first_job last_job get bind]. replace (0 <=? Z.of_nat k)%Z with true by lia.
      destruct (Z.of_nat k <? Z.of_nat (total vars))%Z eqn:E; [|reflexivity]. cbn [andb negb]. replace (f <=? Z.of_nat k)%Z with true by lia. cbn [negb bind].
      f_equal. lia. }
    rewrite Et. reflexivity.
  - assert (Et : to_do (state vars (Some f) (Some l) k) = Ok true).
    { unfold to_do, state. cbn [this_job number_of_jobs first_job last_job get bind]. replace (0 <=? Z.of_nat k)%Z with true by lia.
      replace (Z.of_nat k <? Z.of_nat (total vars))%Z with true by lia. cbn [andb negb]. replace (f <=? Z.of_nat k)%Z with true by lia. cbn [negb bind].
      f_equal. lia. }
    rewrite Et. cbn [bind]. rewrite next_state by (auto; lia). cbn [bind]. rewrite IH by lia. reflexivity.
Qed.

Lemma total_pos vars : Forall (fun v : variable V => vvalues v <> []) vars -> 0 < total vars.
Proof.
  unfold total. induction 1 as [|v vars Hv _ IH]; [cbn; lia|]. cbn [sizes map]. rewrite prod_cons.
  destruct (vvalues v); [contradiction|]. cbn [List.length]. fold (sizes vars). lia.
Qed.
Lemma this_states vars f l k d : map this_job (map (state vars f l) (seq k d)) = interval (Z.of_nat k) (Z.of_nat (k + d)).
Proof.
  unfold interval. replace (Z.to_nat (Z.of_nat (k + d) - Z.of_nat k)) with d by lia. rewrite map_map.
  replace (seq k d) with (map (fun i => k + i) (seq 0 d)).
  - rewrite map_map. apply map_ext. intros i. cbn. lia.
  - clear. revert k. induction d as [|d IH]; intros k; [reflexivity|]. cbn [seq map]. rewrite Nat.add_0_r. f_equal.
    rewrite <- (IH (S k)). rewrite <- seq_shift, map_map. apply map_ext. intros. lia.
Qed.
End Select.

(* ---- arguments ---- *)

Section Jobs.
Context {V : Type} (atof : string -> V) (atoi : string -> Z) (linspace : V -> V -> Z -> outcome (list V)).

Lemma eqb_no a b : ~ In a option_names -> In b option_names -> String.eqb a b = false.
Proof. intros H Hb. apply String.eqb_neq. intros ->. contradiction. Qed.
Lemma parse_prog file prog args o : ~ In prog option_names -> parse_args atof atoi linspace file (prog :: args) o = parse_args atof atoi linspace file args o.
Proof. intros H. cbn [parse_args]. rewrite !(eqb_no prog) by (auto; cbn; auto 10). reflexivity. Qed.
Definition add_vars (o : options) (vars : list (variable V)) : options :=
  mkO (o_print o) (o_first_found o) (o_last_found o) (o_blocks_found o) (o_this_found o)
      (o_blocks o) (o_current o) (o_first o) (o_last o) (o_vars o ++ vars) (o_file o).
Lemma parse_vars file ds vars args o : defines atof atoi linspace ds vars ->
  parse_args atof atoi linspace file (variable_args ds ++ args) o = parse_args atof atoi linspace file args (add_vars o vars).
Proof.
  intros [H Hv]. revert o Hv. induction H as [|d v ds vars Hd _ IH]; intros o Hv.
  - unfold add_vars. rewrite app_nil_r. destruct o; reflexivity.
  - inversion Hv as [|? ? [Hn _] Hv']; subst. cbn [variable_args flat_map app]. cbn [parse_args String.eqb Ascii.eqb Bool.eqb]. rewrite Hd. cbn [bind].
    rewrite (proj2 (String.eqb_neq _ _) Hn). rewrite IH by auto. unfold add_vars. cbn. rewrite <- app_assoc. reflexivity.
Qed.
Lemma defines_values ds vars : defines atof atoi linspace ds vars -> Forall (fun v => vvalues v <> []) vars.
Proof. intros [_ H]. eapply Forall_impl; [|exact H]. cbn; tauto. Qed.
Lemma new_job_vars file prog ds vars opts : ~ In prog option_names -> defines atof atoi linspace ds vars ->
  new_job atof atoi linspace file (prog :: variable_args ds ++ opts) =
  (p <- parse_args atof atoi linspace file opts (add_vars no_options vars) ;; match p with Exited => Ok None | Parsed o => setup o end).
Proof. intros Hp Hd. unfold new_job. rewrite parse_prog by auto. rewrite (parse_vars _ _ vars) by auto. reflexivity. Qed.

(* a job set up to start at job k and go on until job l *)
Lemma visits_setup file args j vars f l k : Forall (fun v => vvalues v <> []) vars -> (0 <= f <= Z.of_nat k)%Z ->
  new_job atof atoi linspace file args = Ok (Some j) -> j = state vars (Some f) (Some l) k ->
  visits atof atoi linspace file args (map (state vars (Some f) (Some l)) (seq k (Z.to_nat (Z.min (l + 1) (Z.of_nat (total vars)) - Z.of_nat k)))).
Proof.
  intros Hv Hf Hj ->. eexists. split; [exact Hj|]. exists (S (Z.to_nat (Z.min (l + 1) (Z.of_nat (total vars)) - Z.of_nat k))). intros fuel Hfu. apply run_state; auto.
Qed.
End Jobs.

Lemma interval_app a b c : (a <= b <= c)%Z -> interval a b ++ interval b c = interval a c.
Proof.
  intros H. unfold interval. replace (Z.to_nat (c - a)) with (Z.to_nat (b - a) + Z.to_nat (c - b)) by lia. rewrite seq_app, map_app. f_equal.
  rewrite Nat.add_0_l. generalize (Z.to_nat (c - b)) as m. intros m. replace (seq (Z.to_nat (b - a)) m) with (map (fun i => Z.to_nat (b - a) + i) (seq 0 m)).
  - rewrite map_map. apply map_ext. intros. lia.
  - generalize (Z.to_nat (b - a)) as k. clear. induction m as [|m IH]; intros k; [reflexivity|]. cbn [seq map]. rewrite Nat.add_0_r. f_equal.
    rewrite <- (IH (S k)). rewrite <- seq_shift, map_map. apply map_ext. intros. lia.
Qed.
Lemma interval_empty a b : (b <= a)%Z -> interval a b = [].
Proof. intros H. unfold interval. replace (Z.to_nat (b - a)) with 0 by lia. reflexivity. Qed.

(* ---- flags ---- *)

Lemma flag_run_app {D} (f : flags D) h1 h2 : flag_run f (h1 ++ h2) = (g <- flag_run f h1 ;; flag_run g h2).
Proof. revert f. induction h1 as [|o h1 IH]; intros f; cbn; [reflexivity|]. destruct (flag_step f o); cbn; auto. Qed.
Lemma flag_run_ok {D} (h : list (flag_op D)) f : flag_run no_flags h = Ok f ->
  List.length f = keys (rev h) /\ forall k, nth_error f k = last_value (rev h) k.
Proof.
  revert f. induction h as [|o h IH] using rev_ind; intros f E.
  - inversion E; subst. split; [reflexivity|]. intros [|k]; reflexivity.
  - rewrite flag_run_app in E. apply bind_ok in E as (g & E1 & E2). destruct (IH g E1) as (Hl & Hg). rewrite rev_app_distr. cbn [rev app].
    cbn in E2. destruct o as [v|k v]; cbn in E2.
    + inversion E2; subst. split; [cbn; rewrite app_length, Hl; cbn; lia|]. intros k. cbn. rewrite <- Hl, <- Hg.
      destruct (Nat.eqb_spec k (List.length g)) as [->|N]; [rewrite nth_error_app2, Nat.sub_diag by lia; reflexivity|].
      destruct (Nat.lt_ge_cases k (List.length g)); [apply nth_error_app1; auto|].
      rewrite (proj2 (nth_error_None g k)) by lia. apply nth_error_None. rewrite app_length. cbn. lia.
    + unfold flag_set in E2. destruct (List.length g <=? k) eqn:E; [discriminate|]. rewrite wr_ok in E2 by lia. cbn in E2. inversion E2; subst.
      split; [rewrite length_upd; exact Hl|]. intros i. cbn. rewrite nth_error_upd. replace (k <? List.length g) with true by lia.
      rewrite andb_true_r, Hg. reflexivity.
Qed.
Lemma flag_run_total {D} (h : list (flag_op D)) : (exists f, flag_run no_flags h = Ok f) \/ flag_run no_flags h = Abort.
Proof.
  induction h as [|o h IH] using rev_ind; [left; eexists; reflexivity|]. rewrite flag_run_app. destruct IH as [(f & ->)| ->]; [|right; reflexivity]. cbn.
  destruct o as [v|k v]; cbn; [eauto|]. unfold flag_set. destruct (List.length f <=? k) eqn:E; [right; reflexivity|]. rewrite wr_ok by lia. left. eexists. reflexivity.
Qed.
