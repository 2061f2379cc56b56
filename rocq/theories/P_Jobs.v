(* C45-C48, C62, C63: jobs and flags.  Statements and their proofs.
   V is the type of the values, atof and atoi the functions of the C library,
   linspace the library's function, file the files that exist: all arbitrary. *)
From Verif Require Import Base Spec M_Tensor M_Linspace L_Lin L_Linspace P_Arith M_Jobs S_Jobs L_Jobs.
Local Open Scope string_scope.
Local Open Scope list_scope.
Local Open Scope nat_scope.

Section Jobs.
Context {V : Type} (atof : string -> V) (atoi : string -> Z) (linspace : V -> V -> Z -> outcome (list V)).
Context (file : string -> list string) (prog : string).

Lemma start_all ds vars : ~ In prog option_names -> defines atof atoi linspace ds vars ->
  new_job atof atoi linspace file (prog :: variable_args ds) = Ok (Some (state vars (Some 0%Z) (Some (Z.of_nat (total vars) - 1)%Z) 0)).
Proof.
  intros Hp Hd. pose proof (new_job_vars atof atoi linspace file prog ds vars [] Hp Hd) as E. rewrite app_nil_r in E. rewrite E. cbn [parse_args bind]. 
  unfold setup. cbn [add_vars no_options o_print o_blocks_found o_first_found o_this_found o_vars app bind]. rewrite number_ok.
  rewrite (select_state vars _ _ _ 0) by (eauto using defines_values; lia). reflexivity.
Qed.
End Jobs.

(* ---- C45: enumeration ---- *)

(* The loop over all the jobs goes through every combination of values of the
   variables exactly once, and number_of_jobs() says how many there are; names
   and values of the variables do not change on the way *)
Theorem C45_enumeration : forall V atof atoi linspace file prog ds (vars : list (variable V)),
  ~ In prog option_names -> defines atof atoi linspace ds vars ->
  exists states, visits atof atoi linspace file (prog :: variable_args ds) states /\
    NoDup (map picks states) /\
    (forall ix, In ix (map picks states) <-> valid (sizes vars) ix) /\
    Forall (fun j => number_of_jobs j = Z.of_nat (List.length states) /\
                     map (fun v => (vname v, vvalues v)) (variables j) = map (fun v => (vname v, vvalues v)) vars) states.
Proof.
  intros V atof atoi linspace file prog ds vars Hp Hd. assert (Hv := defines_values _ _ _ _ _ Hd).
  eexists. split; [refine (visits_setup _ _ _ file _ _ vars 0%Z _ 0 Hv _ (start_all atof atoi linspace file prog ds vars Hp Hd) eq_refl); lia|].
  pose proof (total_pos vars Hv) as Hpos. set (N := total vars) in *. replace (Z.to_nat _) with N by lia.
  set (f := state vars (Some 0%Z) (Some (Z.of_nat N - 1)%Z)).
  assert (Epick : forall k, picks (f k) = unlin (sizes vars) k).
  { intros k. unfold picks, f, state. cbn [variables]. apply pick_which. rewrite unlin_len, sizes_len. reflexivity. }
  assert (Em : map picks (map f (seq 0 N)) = map (unlin (sizes vars)) (seq 0 N)) by (rewrite map_map; apply map_ext; auto).
  rewrite Em. split; [|split].
  - assert (G : forall l, NoDup l -> (forall k, In k l -> k < N) -> NoDup (map (unlin (sizes vars)) l)).
    { induction 1 as [|k l Hn Hnd IH]; intros Hb; cbn; constructor.
      - rewrite in_map_iff. intros (k' & E & Hk'). apply Hn.
        assert (H1 : lin (sizes vars) (unlin (sizes vars) k') = k') by (apply lin_unlin; apply Hb; right; auto).
        assert (H2 : lin (sizes vars) (unlin (sizes vars) k) = k) by (apply lin_unlin; apply Hb; left; auto). congruence.
      - apply IH. intros; apply Hb; right; auto. }
    apply G; [apply seq_NoDup|]. intros k Hk. apply in_seq in Hk. lia.
  - intros ix. rewrite in_map_iff. split.
    + intros (k & <- & Hk). apply in_seq in Hk. apply unlin_valid. unfold N, total in Hk. lia.
    + intros Hi. exists (lin (sizes vars) ix). split; [apply unlin_lin; auto|]. apply in_seq. pose proof (lin_lt _ _ Hi). unfold N, total. lia.
  - apply Forall_forall. intros j Hj. apply in_map_iff in Hj as (k & <- & Hk). rewrite map_length, seq_length. split; [reflexivity|].
    unfold f, state. cbn [variables]. assert (Hl : List.length (unlin (sizes vars) k) = List.length vars) by (rewrite unlin_len, sizes_len; auto).
    revert Hl. generalize (unlin (sizes vars) k). clear. unfold pick. induction vars as [|v vars IH]; intros [|w ws] Hl; cbn in *; try discriminate; auto. f_equal. apply IH. lia.
Qed.
Print Assumptions C45_enumeration.

(* A variable with no values at all, such as x,1,2,0, crashes the constructor *)
Theorem C45_zero_steps_refuted : forall V atof atoi linspace file prog d (v : variable V),
  ~ In prog option_names -> parse_line atof atoi linspace d = Ok v -> vname v <> "" -> vvalues v = [] ->
  new_job atof atoi linspace file [prog; "--variable"; d] = UB.
Proof.
  intros V atof atoi linspace file prog d v Hp Hd Hn Hv. unfold new_job. rewrite parse_prog by auto. cbn [parse_args String.eqb Ascii.eqb Bool.eqb]. rewrite Hd. cbn [bind].
  rewrite (proj2 (String.eqb_neq _ _) Hn). cbn [bind]. unfold setup. cbn. rewrite Hv. reflexivity.
Qed.
Print Assumptions C45_zero_steps_refuted.

(* Concrete functions for the examples: one-digit numbers, and the values
   a, a+1, ... *)
Definition ex_atoi (s : string) : Z := match s with String c _ => (Z.of_nat (nat_of_ascii c) - 48)%Z | _ => 0%Z end.
Definition ex_linspace (a b n : Z) : outcome (list Z) := Ok (map (fun i => a + Z.of_nat i)%Z (seq 0 (Z.to_nat n))).
Definition ex_vars : list (variable Z) := [mkVar "x" [1; 2; 3]%Z 0; mkVar "yy" [7; 8]%Z 0].
Example C45_nonvacuous :
  defines ex_atoi ex_atoi ex_linspace ["x,1,3,3"; " yy 7;8	2 "] ex_vars /\
  exists j, new_job ex_atoi ex_atoi ex_linspace (fun _ => []) (["prog"] ++ variable_args ["x,1,3,3"; " yy 7;8	2 "]) = Ok (Some j) /\
  match run 10 j with
  | Ok l => map (fun j => (picks j, get_value j "x", get_value j "yy")) l =
      [([0; 0], Ok 1%Z, Ok 7%Z); ([1; 0], Ok 2%Z, Ok 7%Z); ([2; 0], Ok 3%Z, Ok 7%Z);
       ([0; 1], Ok 1%Z, Ok 8%Z); ([1; 1], Ok 2%Z, Ok 8%Z); ([2; 1], Ok 3%Z, Ok 8%Z)]
  | _ => False
  end /\
  exists v, parse_line ex_atoi ex_atoi ex_linspace "x,1,3,0" = Ok v /\ vname v <> "" /\ vvalues v = [].
Proof.
  split.
  - split; [repeat constructor|]. repeat constructor; discriminate.
  - eexists. split; [vm_compute; reflexivity|]. split; [vm_compute; reflexivity|]. eexists. split; [vm_compute; reflexivity|]. split; [discriminate|reflexivity].
Qed.

(* ---- C46: blocks and intervals ---- *)

(* The blocks 0, ..., n-1 of --job-blocks n run all jobs: each exactly once and
   in order.  The two options come in either order. *)
Theorem C46_blocks : forall V atof atoi linspace file prog ds (vars : list (variable V)) n ks (swap : bool),
  ~ In prog option_names -> defines atof atoi linspace ds vars ->
  (0 < atoi n)%Z -> map atoi ks = interval 0 (atoi n) ->
  let args (k : string) := prog :: variable_args ds ++ (if swap then ["--this-job"; k; "--job-blocks"; n] else ["--job-blocks"; n; "--this-job"; k]) in
  exists blocks, Forall2 (fun k l => does atof atoi linspace file (args k) l) ks blocks /\
    List.concat blocks = interval 0 (Z.of_nat (prod (sizes vars))).
Proof.
  intros V atof atoi linspace file prog ds vars n ks swap Hp Hd Hn Hk args. assert (Hv := defines_values _ _ _ _ _ Hd).
  pose proof (total_pos vars Hv) as Hpos. set (N := Z.of_nat (total vars)). set (b := atoi n) in *.
  set (delta := ((N + b - 1) / b)%Z).
  assert (Hdelta : (1 <= delta /\ N <= b * delta)%Z).
  { unfold delta. split; [apply Z.div_le_lower_bound; lia|]. pose proof (Z.div_mod (N + b - 1) b). pose proof (Z.mod_pos_bound (N + b - 1) b). lia. }
  assert (One : forall k, (0 <= atoi k)%Z -> does atof atoi linspace file (args k) (interval (Z.min (atoi k * delta) N) (Z.min ((atoi k + 1) * delta) N))).
  { intros k Hk0. set (c := Z.min (atoi k * delta) N). assert (0 <= c <= N)%Z by (unfold c; nia).
    assert (Ej : new_job atof atoi linspace file (args k) = Ok (Some (state vars (Some c) (Some (Z.min (N - 1) (c + delta - 1))) (Z.to_nat c)))).
    { unfold args. rewrite (new_job_vars atof atoi linspace file prog ds vars) by auto.
      assert (Eo : exists o, parse_args atof atoi linspace file (if swap then ["--this-job"; k; "--job-blocks"; n] else ["--job-blocks"; n; "--this-job"; k]) (add_vars no_options vars) = Ok (Parsed o) /\
        o_print o = false /\ o_blocks_found o = true /\ o_first_found o = false /\ o_last_found o = false /\ o_blocks o = Some b /\ o_current o = Some (atoi k) /\ o_vars o = vars).
      { destruct swap; eexists; (split; [reflexivity|]); repeat split. }
      destruct Eo as (o & -> & E1 & E2 & E3 & E4 & E5 & E6 & E7). cbn [bind]. unfold setup. rewrite E1, E2, E3, E4, E5, E6, E7. cbn [orb get bind].
      replace (b <=? 0)%Z with false by lia. rewrite number_ok. fold N. rewrite Z.quot_div_nonneg by lia. fold delta. fold c.
      cbn [bind]. unfold N. rewrite select_stateZ by (auto; lia). reflexivity. }
    eexists. split; [eapply (visits_setup _ _ _ file _ _ vars c _ (Z.to_nat c) Hv); [lia|exact Ej|reflexivity]|]. rewrite this_states.
    fold N. rewrite Z2Nat.id by lia.
    destruct (Z.le_gt_cases N (atoi k * delta)).
    - rewrite !interval_empty; auto; unfold c; nia.
    - f_equal. unfold c. nia. }
  exists (map (fun k => interval (Z.min (atoi k * delta) N) (Z.min ((atoi k + 1) * delta) N)) ks). split.
  - assert (Hks : Forall (fun k => (0 <= atoi k)%Z) ks).
    { apply Forall_forall. intros k Hin. assert (Hi : In (atoi k) (interval 0 b)) by (rewrite <- Hk; apply in_map; auto). unfold interval in Hi.
      apply in_map_iff in Hi as (i & <- & _). lia. }
    clear Hk. induction Hks; cbn; constructor; auto.
  - fold (total vars). fold N. replace (map _ ks) with (map (fun k => interval (Z.min (k * delta) N) (Z.min ((k + 1) * delta) N)) (map atoi ks)) by (rewrite map_map; reflexivity).
    rewrite Hk. assert (G : forall m, List.concat (map (fun k => interval (Z.min (k * delta) N) (Z.min ((k + 1) * delta) N)) (interval 0 (Z.of_nat m))) = interval 0 (Z.min (Z.of_nat m * delta) N)).
    { clear - Hdelta Hpos. induction m as [|m IH]; [cbn; rewrite interval_empty; [reflexivity|lia]|].
      replace (interval 0 (Z.of_nat (S m))) with (interval 0 (Z.of_nat m) ++ [Z.of_nat m]).
      - rewrite map_app, concat_app, IH. cbn [map List.concat]. rewrite app_nil_r.
        replace (Z.of_nat m + 1)%Z with (Z.of_nat (S m)) by lia. apply interval_app. nia.
      - unfold interval. rewrite !Z.sub_0_r, !Nat2Z.id, seq_S, map_app. cbn. try reflexivity; f_equal; f_equal; lia. }
    rewrite <- (Z2Nat.id b) by lia. rewrite G. f_equal. lia.
Qed.
Print Assumptions C46_blocks.

(* --first-job a --last-job b runs the jobs from a to b, both included, those
   that exist *)
Theorem C46_interval : forall V atof atoi linspace file prog ds (vars : list (variable V)) a b,
  ~ In prog option_names -> defines atof atoi linspace ds vars ->
  (0 <= atoi a <= atoi b)%Z -> (atoi a < Z.of_nat (prod (sizes vars)))%Z ->
  does atof atoi linspace file (prog :: variable_args ds ++ ["--first-job"; a; "--last-job"; b])
    (interval (atoi a) (Z.min (atoi b + 1) (Z.of_nat (prod (sizes vars))))).
Proof.
  intros V atof atoi linspace file prog ds vars a b Hp Hd Hab Ha. assert (Hv := defines_values _ _ _ _ _ Hd).
  fold (total vars) in *. set (N := Z.of_nat (total vars)) in *. set (l := if (N <=? atoi b)%Z then Z.max 0 (N - 1) else atoi b).
  assert (Ej : new_job atof atoi linspace file (prog :: variable_args ds ++ ["--first-job"; a; "--last-job"; b]) = Ok (Some (state vars (Some (atoi a)) (Some l) (Z.to_nat (atoi a))))).
  { rewrite (new_job_vars atof atoi linspace file prog ds vars) by auto. cbn [parse_args String.eqb Ascii.eqb Bool.eqb bind]. unfold add_vars, no_options.
    cbn [o_print o_first_found o_last_found o_blocks_found o_this_found o_blocks o_current o_first o_last o_vars o_file app parse_args String.eqb Ascii.eqb Bool.eqb negb bind].
    unfold setup. cbn [o_print o_first_found o_last_found o_blocks_found o_this_found o_blocks o_current o_first o_last o_vars get bind]. rewrite number_ok. fold N.
    replace (atoi a <? 0)%Z with false by lia. replace (N <=? atoi a)%Z with false by lia. fold l.
    replace (l <? atoi a)%Z with false by (unfold l; destruct (N <=? atoi b)%Z eqn:E; lia). cbn [bind].
    cbn [bind]. unfold N. rewrite select_stateZ by (auto; lia). reflexivity. }
  eexists. split; [eapply (visits_setup _ _ _ file _ _ vars (atoi a) _ (Z.to_nat (atoi a)) Hv); [lia|exact Ej|reflexivity]|].
  rewrite this_states. fold N. f_equal; unfold l; destruct (N <=? atoi b)%Z eqn:E; lia.
Qed.
Print Assumptions C46_interval.

(* --this-job k runs job k, if there is one *)
Theorem C46_this_job : forall V atof atoi linspace file prog ds (vars : list (variable V)) k,
  ~ In prog option_names -> defines atof atoi linspace ds vars -> (0 <= atoi k)%Z ->
  does atof atoi linspace file (prog :: variable_args ds ++ ["--this-job"; k])
    (if (atoi k <? Z.of_nat (prod (sizes vars)))%Z then [atoi k] else []).
Proof.
  intros V atof atoi linspace file prog ds vars k Hp Hd Hk. assert (Hv := defines_values _ _ _ _ _ Hd).
  fold (total vars) in *. set (N := Z.of_nat (total vars)) in *.
  assert (Ej : exists j, new_job atof atoi linspace file (prog :: variable_args ds ++ ["--this-job"; k]) = Ok (Some j) /\
     ((atoi k <= N)%Z -> j = state vars (Some (atoi k)) (Some (atoi k)) (Z.to_nat (atoi k))) /\ number_of_jobs j = N /\ this_job j = atoi k).
  { rewrite (new_job_vars atof atoi linspace file prog ds vars) by auto. cbn [parse_args String.eqb Ascii.eqb Bool.eqb bind]. unfold add_vars, no_options.
    cbn [o_print o_first_found o_last_found o_blocks_found o_this_found o_blocks o_current o_first o_last o_vars o_file app parse_args String.eqb Ascii.eqb Bool.eqb negb bind].
    unfold setup. cbn [o_print o_first_found o_last_found o_blocks_found o_this_found o_blocks o_current o_first o_last o_vars get bind]. rewrite number_ok. fold N.
    destruct (Z.le_gt_cases (atoi k) N) as [H|H].
    - assert (E : select_job (atoi k) (mkJob vars N 0 (Some (atoi k)) (Some (atoi k))) = Ok (state vars (Some (atoi k)) (Some (atoi k)) (Z.to_nat (atoi k)))).
      { cbn [bind]. unfold N. rewrite select_stateZ by (auto; lia). reflexivity. }
      rewrite E. eexists. split; [reflexivity|]. split; [auto|]. split; [reflexivity|]. cbn. lia.
    - unfold select_job. replace (0 <=? atoi k)%Z with true by lia. cbn [assert_ bind number_of_jobs]. replace (atoi k <=? N)%Z with false by lia. cbn [bind].
      eexists. split; [reflexivity|]. split; [lia|]. auto. }
  destruct Ej as (j & Ej & H1 & H2 & H3). destruct (Z.lt_ge_cases (atoi k) N) as [H|H].
  - replace (atoi k <? N)%Z with true by lia. eexists. split; [eapply (visits_setup _ _ _ file _ _ vars (atoi k) _ (Z.to_nat (atoi k)) Hv); [lia|exact Ej|apply H1; lia]|].
    rewrite this_states. fold N. unfold interval. replace (Z.to_nat (Z.of_nat (Z.to_nat (atoi k) + Z.to_nat (Z.min (atoi k + 1) N - Z.of_nat (Z.to_nat (atoi k)))) - Z.of_nat (Z.to_nat (atoi k)))) with 1 by lia.
    cbn. f_equal. lia.
  - replace (atoi k <? N)%Z with false by lia. exists []. split; [|reflexivity]. exists j. split; [exact Ej|]. exists 1. intros [|fuel] Hf; [lia|]. cbn [run].
    unfold to_do. rewrite H2, H3. replace (atoi k <? N)%Z with false by lia. rewrite andb_false_r. reflexivity.
Qed.
Print Assumptions C46_this_job.

(* Without --this-job, --job-blocks uses an uninitialised number: it does not
   default to block 0 *)
Theorem C46_default_block_refuted : forall V atof atoi linspace file prog ds (vars : list (variable V)) n,
  ~ In prog option_names -> defines atof atoi linspace ds vars -> (0 < atoi n)%Z ->
  new_job atof atoi linspace file (prog :: variable_args ds ++ ["--job-blocks"; n]) = UB.
Proof.
  intros V atof atoi linspace file prog ds vars n Hp Hd Hn. rewrite (new_job_vars atof atoi linspace file prog ds vars) by auto.
  cbn [parse_args String.eqb Ascii.eqb Bool.eqb bind]. unfold setup. cbn [add_vars no_options o_print o_first_found o_last_found o_blocks_found o_this_found o_blocks o_current orb get bind].
  replace (atoi n <=? 0)%Z with false by lia. reflexivity.
Qed.
Print Assumptions C46_default_block_refuted.
(* and --first-job without --last-job crashes in the loop *)
Theorem C46_first_job_alone_refuted : forall V atof atoi linspace file prog ds (vars : list (variable V)) a fuel,
  ~ In prog option_names -> defines atof atoi linspace ds vars -> (0 <= atoi a < Z.of_nat (prod (sizes vars)))%Z -> 0 < fuel ->
  exists j, new_job atof atoi linspace file (prog :: variable_args ds ++ ["--first-job"; a]) = Ok (Some j) /\ run fuel j = UB.
Proof.
  intros V atof atoi linspace file prog ds vars a fuel Hp Hd Ha Hf. assert (Hv := defines_values _ _ _ _ _ Hd).
  fold (total vars) in *. set (N := Z.of_nat (total vars)) in *. exists (state vars (Some (atoi a)) None (Z.to_nat (atoi a))). split.
  - rewrite (new_job_vars atof atoi linspace file prog ds vars) by auto. cbn [parse_args String.eqb Ascii.eqb Bool.eqb bind]. unfold add_vars, no_options.
    cbn [o_print o_first_found o_last_found o_blocks_found o_this_found o_blocks o_current o_first o_last o_vars o_file app parse_args String.eqb Ascii.eqb Bool.eqb negb bind].
    unfold setup. cbn [o_print o_first_found o_last_found o_blocks_found o_this_found o_blocks o_current o_first o_last o_vars get bind]. rewrite number_ok. fold N.
    replace (atoi a <? 0)%Z with false by lia. replace (N <=? atoi a)%Z with false by lia. cbn [bind].
    cbn [bind]. unfold N. rewrite select_stateZ by (auto; lia). reflexivity.
  - destruct fuel as [|fuel]; [lia|]. cbn [run]. unfold to_do, state. cbn [this_job number_of_jobs first_job last_job get bind]. fold N.
    replace (0 <=? Z.of_nat (Z.to_nat (atoi a)))%Z with true by lia. replace (Z.of_nat (Z.to_nat (atoi a)) <? N)%Z with true by lia. cbn [andb negb].
    replace (atoi a <=? Z.of_nat (Z.to_nat (atoi a)))%Z with true by lia. reflexivity.
Qed.
Print Assumptions C46_first_job_alone_refuted.

(* What makes no sense is refused: a first job that does not exist, an interval
   that ends before it begins, --last-job before --first-job, --first-job after
   --this-job, blocks together with an interval, no blocks at all, a negative
   job, and an option without its argument. *)
Definition refuses {V} atof atoi linspace file prog ds (opts : list string) : Prop :=
  @new_job V atof atoi linspace file (prog :: variable_args ds ++ opts) = Abort.
Theorem C46_refuses : forall V atof atoi linspace file prog ds (vars : list (variable V)) a b k,
  ~ In prog option_names -> defines atof atoi linspace ds vars ->
  let refuses := @refuses V atof atoi linspace file prog ds in
  let number := Z.of_nat (prod (sizes vars)) in
  ((atoi a < 0 \/ number <= atoi a)%Z -> refuses ["--first-job"; a] /\ refuses ["--first-job"; a; "--last-job"; b]) /\
  ((atoi b < atoi a)%Z -> refuses ["--first-job"; a; "--last-job"; b]) /\
  refuses ["--last-job"; b; "--first-job"; a] /\ refuses ["--last-job"; b] /\
  refuses ["--this-job"; k; "--first-job"; a] /\
  refuses ["--job-blocks"; k; "--first-job"; a] /\ refuses ["--first-job"; a; "--job-blocks"; k] /\
  ((atoi b <= 0)%Z -> refuses ["--job-blocks"; b; "--this-job"; k] /\ refuses ["--this-job"; k; "--job-blocks"; b]) /\
  ((atoi k < 0)%Z -> refuses ["--this-job"; k]) /\
  (forall o, In o ["--job"; "--this-job"; "--job-blocks"; "--first-job"; "--variable"] -> refuses [o]) /\
  refuses ["--first-job"; a; "--last-job"].
Proof.
  intros V atof atoi linspace file prog ds vars a b k Hp Hd refuses number.
  assert (Hv := defines_values _ _ _ _ _ Hd). pose proof (total_pos vars Hv) as Hpos. fold (total vars) in *. fold number in Hpos.
  assert (G : forall opts, (p <- parse_args atof atoi linspace file opts (add_vars no_options vars) ;; match p with Exited => Ok None | Parsed o => setup o end) = Abort -> refuses opts).
  { intros opts H. unfold refuses, P_Jobs.refuses. rewrite (new_job_vars atof atoi linspace file prog ds vars) by auto. exact H. }
  assert (En : compute_number_of_jobs vars = number) by apply number_ok.
  assert (Hn : (1 <= number)%Z) by (unfold number; fold (total vars); lia).
  Ltac run_ := cbn [parse_args String.eqb Ascii.eqb Bool.eqb bind]; unfold add_vars, no_options;
    cbn [o_print o_first_found o_last_found o_blocks_found o_this_found o_blocks o_current o_first o_last o_vars o_file app parse_args String.eqb Ascii.eqb Bool.eqb negb bind];
    unfold setup; cbn [o_print o_first_found o_last_found o_blocks_found o_this_found o_blocks o_current o_first o_last o_vars get bind orb].
  split; [|split; [|split; [|split; [|split; [|split; [|split; [|split; [|split; [|split]]]]]]]]].
  - intros H. split; apply G; run_; rewrite En; destruct (Z.ltb_spec (atoi a) 0); try reflexivity; replace (number <=? atoi a)%Z with true by lia; reflexivity.
  - intros H. apply G. run_. rewrite En. destruct (Z.ltb_spec (atoi a) 0); [reflexivity|]. destruct (Z.leb_spec number (atoi a)); [reflexivity|].
    replace (number <=? atoi b)%Z with false by lia. replace (atoi b <? atoi a)%Z with true by lia. reflexivity.
  - apply G. reflexivity.
  - apply G. reflexivity.
  - apply G. reflexivity.
  - apply G. reflexivity.
  - apply G. reflexivity.
  - intros H. split; apply G; run_; replace (atoi b <=? 0)%Z with true by lia; reflexivity.
  - intros H. apply G. run_. unfold select_job. replace (0 <=? atoi k)%Z with false by lia. reflexivity.
  - intros o Ho. apply G. cbn in Ho. repeat destruct Ho as [<-|Ho]; try reflexivity. contradiction.
  - apply G. reflexivity.
Qed.
Print Assumptions C46_refuses.

(* The other way round --first-job and --this-job are accepted together, and the
   second one is ignored. *)
Theorem C46_first_then_this_refuted : forall V atof atoi linspace file prog ds (vars : list (variable V)) a b k,
  ~ In prog option_names -> defines atof atoi linspace ds vars ->
  new_job atof atoi linspace file (prog :: variable_args ds ++ ["--first-job"; a; "--last-job"; b; "--this-job"; k]) =
  new_job atof atoi linspace file (prog :: variable_args ds ++ ["--first-job"; a; "--last-job"; b]).
Proof.
  intros V atof atoi linspace file prog ds vars a b k Hp Hd. rewrite !(new_job_vars atof atoi linspace file prog ds vars) by auto. reflexivity.
Qed.
Print Assumptions C46_first_then_this_refuted.

Example C46_nonvacuous :
  let ex ks := does ex_atoi ex_atoi ex_linspace (fun _ => []) (["prog"] ++ variable_args ["x,1,3,3"; " yy 7;8	2 "] ++ ks) in
  map ex_atoi ["0"; "1"; "2"; "3"] = interval 0 (ex_atoi "4") /\ prod (sizes ex_vars) = 6 /\
  ex ["--job-blocks"; "4"; "--this-job"; "0"] [0; 1]%Z /\ ex ["--job-blocks"; "4"; "--this-job"; "2"] [4; 5]%Z /\
  ex ["--job-blocks"; "4"; "--this-job"; "3"] []%Z /\
  ex ["--first-job"; "3"; "--last-job"; "4"] [3; 4]%Z /\ ex ["--this-job"; "5"] [5]%Z.
Proof.
  cbv zeta. split; [reflexivity|]. split; [reflexivity|]. destruct C45_nonvacuous as [Hd _]. assert (Hp : ~ In "prog" option_names) by (cbn; intuition discriminate).
  destruct (C46_blocks Z ex_atoi ex_atoi ex_linspace (fun _ => []) "prog" _ _ "4" ["0"; "1"; "2"; "3"] false Hp Hd eq_refl eq_refl) as (bl & H & _).
  assert (G : forall args l j, new_job ex_atoi ex_atoi ex_linspace (fun _ => []) args = Ok (Some j) ->
     (forall fuel, run (10 + fuel) j = Ok l) -> does ex_atoi ex_atoi ex_linspace (fun _ => []) args (map this_job l)).
  { intros args l j Ej Hr. exists l. split; [|reflexivity]. exists j. split; [exact Ej|]. exists 10. intros fuel Hf. replace fuel with (10 + (fuel - 10)) by lia. apply Hr. }
  repeat split; (eapply (fun args l j E1 E2 E3 => eq_ind _ (does ex_atoi ex_atoi ex_linspace (fun _ => []) args) (G args l j E1 E2) _ E3); [vm_compute; reflexivity|intros fuel; vm_compute; reflexivity|reflexivity]).
Qed.

(* ---- C47: job files ---- *)

(* What is in the job file never matters, and after --job f alone no variable
   at all is defined, whatever f contains *)
Theorem C47_job_file_refuted : forall V atof atoi linspace prog f,
  ~ In prog option_names ->
  exists j : job V, (forall file, new_job atof atoi linspace file [prog; "--job"; f] = Ok (Some j)) /\
    forall name, get_value j name = Abort.
Proof.
  intros V atof atoi linspace prog f Hp. eexists. split.
  - intros file. unfold new_job. rewrite parse_prog by auto. reflexivity.
  - reflexivity.
Qed.
Print Assumptions C47_job_file_refuted.
Theorem C47_file_ignored_refuted : forall V atof atoi linspace file file' args,
  @new_job V atof atoi linspace file args = new_job atof atoi linspace file' args.
Proof.
  intros V atof atoi linspace file file' args. unfold new_job. f_equal.
  assert (G : forall n args o, List.length args <= n -> parse_args atof atoi linspace file args o = parse_args atof atoi linspace file' args o).
  { clear. induction n as [|n IH]; intros args o Hl; (destruct args as [|a args]; [reflexivity|]); cbn [List.length] in Hl; [lia|].
    cbn [parse_args]. repeat match goal with |- context [if String.eqb a ?b then _ else _] => destruct (String.eqb a b) end;
      try (destruct args as [|b args]; cbn [List.length] in Hl); try reflexivity; try (apply IH; cbn [List.length]; lia).
    all: try (destruct (o_this_found o)); try (destruct (negb (o_first_found o))); try reflexivity; try (apply IH; cbn [List.length]; lia).
    all: try (unfold parse_file; cbn [bind]; apply IH; lia).
    all: destruct (parse_line atof atoi linspace b) as [v| | |]; cbn [bind]; try reflexivity; destruct (String.eqb (vname v) ""); [reflexivity|]; apply IH; lia. }
  apply (G _ _ _ (le_n _)).
Qed.
Print Assumptions C47_file_ignored_refuted.
Example C47_nonvacuous : ~ In "prog" option_names /\
  exists j, new_job ex_atoi ex_atoi ex_linspace (fun _ => ["x,5"]) ["prog"; "--job"; "f"] = Ok (Some j) /\ get_value j "x" = Abort /\
  exists j', new_job ex_atoi ex_atoi ex_linspace (fun _ => ["x,5"]) ["prog"; "--variable"; "x,5"] = Ok (Some j') /\ get_value j' "x" = Ok 5%Z.
Proof. split; [cbn; intuition discriminate|]. eexists. split; [reflexivity|]. split; [reflexivity|]. eexists. split; reflexivity. Qed.

(* ---- C62: definitions of variables ---- *)

(* A definition is cut at blanks, tabs, newlines, commas and semicolons; every
   line can be cut, in one way *)
Theorem C62_words : forall s ws, line_words s ws <-> split_string s = ws.
Proof.
  intros s ws. split; [apply split_string_ok|]. intros <-. destruct (line_words_exists s) as (ws & H). rewrite (split_string_ok s ws H). exact H.
Qed.
Print Assumptions C62_words.

(* linspace of the library in exact arithmetic *)
Definition lib_linspace (fuel : nat) (junk : nat -> Q) (a b : Q) (n : Z) : outcome (list Q) :=
  t <- linspace_number fuel junk a b (Z.to_nat n) ;; Ok (data t).
(* name,min,max,n has n equally spaced values from min to max, name,min,max ten,
   and name,min the value min *)
Theorem C62_values : forall (atof : string -> Q) atoi junk s name a b n ws,
  line_words s ws -> ws = [name; a; b; n] /\ (1 < atoi n)%Z \/ ws = [name; a; b] ->
  let count := match ws with [_; _; _; n] => Z.to_nat (atoi n) | _ => 10 end in
  exists values, (exists F, forall fuel, F <= fuel -> parse_line atof atoi (lib_linspace fuel junk) s = Ok (mkVar name values 0)) /\
    List.length values = count /\
    forall i, i < count -> exists v, nth_error values i = Some v /\ (v == atof a + (atof b - atof a) * (qnat i / (qnat count - 1)))%Q.
Proof.
  intros atof atoi junk s name a b n ws Hw Hn count.
  assert (Hc : 1 < count) by (destruct Hn as [[-> H]| ->]; cbn in *; lia).
  destruct (C33_linspace_number junk (atof a) (atof b) count Hc) as (t & (F & HF) & Wt & Dt & Ht & _).
  exists (data t). split; [|split].
  - exists F. intros fuel Hf. unfold parse_line. rewrite (split_string_ok s ws Hw).
    assert (E : forall m, Z.to_nat m = count -> new_variable (lib_linspace fuel junk) name (atof a) (atof b) m = Ok (mkVar name (data t) 0)).
    { intros m Hm. unfold new_variable, lib_linspace. rewrite Hm, HF by auto. reflexivity. }
    destruct Hn as [[-> H]| ->]; apply E; reflexivity.
  - unfold wf in Wt. rewrite Wt, Dt. cbn. lia.
  - intros i Hi. destruct (Ht i Hi) as (v & Hv & Ev). exists v. split; [|exact Ev].
    rewrite elt_valid in Hv by (rewrite Dt; repeat constructor; auto). rewrite Dt, lin_cons, lin_nil in Hv. rewrite Nat.mul_0_r, Nat.add_0_r in Hv. exact Hv.
Qed.
Print Assumptions C62_values.
Theorem C62_constant : forall (atof : string -> Q) atoi junk fuel s name a n ws,
  line_words s ws -> ws = [name; a] \/ (exists b, ws = [name; a; b; n]) /\ atoi n = 1%Z ->
  parse_line atof atoi (lib_linspace fuel junk) s = Ok (mkVar name [atof a] 0).
Proof.
  intros atof atoi junk fuel s name a n ws Hw Hn. unfold parse_line. rewrite (split_string_ok s ws Hw).
  destruct Hn as [->|[(b & ->) Hn]].
  - unfold new_variable, lib_linspace. change (Z.to_nat 1) with 1. cbn. reflexivity.
  - rewrite Hn. unfold new_variable, lib_linspace. change (Z.to_nat 1) with 1. cbn. reflexivity.
Qed.
Print Assumptions C62_constant.
(* one word, none, or more than four are refused *)
Theorem C62_refused : forall V atof atoi linspace file prog s ws rest,
  ~ In prog option_names -> line_words s ws -> List.length ws <= 1 \/ 4 < List.length ws ->
  @new_job V atof atoi linspace file (prog :: "--variable" :: s :: rest) = Abort.
Proof.
  intros V atof atoi linspace file prog s ws rest Hp Hw Hl. unfold new_job. rewrite parse_prog by auto. cbn [parse_args String.eqb Ascii.eqb Bool.eqb].
  assert (E : @parse_line V atof atoi linspace s = Ok no_variable).
  { unfold parse_line. rewrite (split_string_ok s ws Hw). destruct ws as [|? [|? [|? [|? [|? ?]]]]]; cbn in Hl; try reflexivity; lia. }
  rewrite E. reflexivity.
Qed.
Print Assumptions C62_refused.
Example C62_nonvacuous : line_words " x, 1;3 	3" ["x"; "1"; "3"; "3"] /\ line_words "y 2" ["y"; "2"] /\ line_words ";x;" ["x"] /\ ex_atoi "3" = 3%Z.
Proof. repeat split; apply C62_words; reflexivity. Qed.

(* ---- C63: get_value ---- *)

(* In every job the loop goes through, get_value(name) is the value picked for
   the first variable of that name; without one it aborts, and
   get_value_with_default returns the default *)
Theorem C63_get_value : forall V atof atoi linspace file prog ds (vars : list (variable V)) states j,
  ~ In prog option_names -> defines atof atoi linspace ds vars ->
  visits atof atoi linspace file (prog :: variable_args ds) states -> In j states ->
  (forall p v, nth_error vars p = Some v -> (forall p' v', p' < p -> nth_error vars p' = Some v' -> vname v' <> vname v) ->
     exists w x, nth_error (picks j) p = Some w /\ nth_error (vvalues v) w = Some x /\
       get_value j (vname v) = Ok x /\ forall def, get_value_with_default j (vname v) def = Ok x) /\
  (forall name, (forall v, In v vars -> vname v <> name) ->
     get_value j name = Abort /\ forall def, get_value_with_default j name def = Ok def).
Proof.
  intros V atof atoi linspace file prog ds vars states j Hp Hd (j0 & E0 & F & HF) Hj. assert (Hv := defines_values _ _ _ _ _ Hd).
  rewrite (start_all atof atoi linspace file prog ds vars Hp Hd) in E0. inversion E0; subst j0; clear E0.
  assert (Ej : exists k, k < total vars /\ j = state vars (Some 0%Z) (Some (Z.of_nat (total vars) - 1)%Z) k).
  { pose proof (run_state vars 0%Z (Z.of_nat (total vars) - 1)%Z (total vars) Hv 0 (F + S (total vars))) as R.
    rewrite HF in R by lia. specialize (R ltac:(lia) ltac:(lia) ltac:(lia)). inversion R; subst states. apply in_map_iff in Hj as (k & <- & Hk). apply in_seq in Hk.
    exists k. split; [lia|reflexivity]. }
  destruct Ej as (k & Hk & ->). unfold state, picks. cbn [variables].
  set (ws := unlin (sizes vars) k). assert (Hw : valid (sizes vars) ws) by (apply unlin_valid; exact Hk).
  assert (Hl : List.length ws = List.length vars) by (unfold ws; rewrite unlin_len, sizes_len; auto). rewrite pick_which by auto.
  unfold get_value, get_value_with_default, find_variable. cbn [variables].
  clearbody ws. clear - Hw Hl. split.
  - revert ws Hw Hl. induction vars as [|v0 vars IH]; intros [|w0 ws] Hw Hl p v Hp Hf; try discriminate; [destruct p; discriminate|].
    cbn in Hl. inversion Hw; subst. unfold pick in *. cbn [combine map find fst snd vname vvalues]. destruct p as [|p].
    + inversion Hp; subst. exists w0. destruct (nth_error_lt (vvalues v) w0) as (x & Hx); [auto|]. exists x. rewrite String.eqb_refl. unfold var_value. cbn [vvalues vwhich].
      rewrite (rd_ok _ _ _ Hx). auto.
    + cbn in Hp. assert (N : vname v0 <> vname v) by (apply (Hf 0 v0); [lia|reflexivity]). rewrite (proj2 (String.eqb_neq _ _) N).
      destruct (IH ws) with (p := p) (v := v) as (w & x & H1); auto. { intros p' v' H' E'. apply (Hf (S p') v'); [lia|exact E']. } exists w, x. exact H1.
  - intros name Hn. assert (E : find (fun v => String.eqb (vname v) name) (pick vars ws) = None).
    { clear Hw. revert ws Hl. induction vars as [|v0 vars IH]; intros [|w0 ws] Hl; try discriminate; [reflexivity|]. unfold pick in *. cbn [combine map find fst snd vname].
      rewrite (proj2 (String.eqb_neq _ _)) by (apply Hn; left; reflexivity). apply IH; [intros; apply Hn; right; auto|cbn in Hl; lia]. }
    rewrite E. auto.
Qed.
Print Assumptions C63_get_value.
Example C63_nonvacuous : exists states j, visits ex_atoi ex_atoi ex_linspace (fun _ => []) (["prog"] ++ variable_args ["x,1,3,3"; " yy 7;8	2 "]) states /\ In j states /\
  get_value j "yy" = Ok 8%Z /\ get_value j "z" = Abort.
Proof.
  destruct C45_nonvacuous as [Hd _]. assert (Hp : ~ In "prog" option_names) by (cbn; intuition discriminate).
  destruct (C45_enumeration Z ex_atoi ex_atoi ex_linspace (fun _ => []) "prog" _ _ Hp Hd) as (states & Hs & _ & Hi & _).
  assert (H : In [0; 1] (map picks states)) by (apply Hi; repeat constructor).
  apply in_map_iff in H as (j & Ej & Hj). exists states, j. split; [exact Hs|]. split; [exact Hj|].
  destruct (C63_get_value Z ex_atoi ex_atoi ex_linspace (fun _ => []) "prog" _ _ states j Hp Hd Hs Hj) as [H1 H2]. split.
  - destruct (H1 1 (mkVar "yy" [7; 8]%Z 0)) as (w & x & Hw & Hx & E & _); [reflexivity| |].
    + intros [|p'] v' Hl E; [|lia]. inversion E; subst. discriminate.
    + rewrite Ej in Hw. inversion Hw; subst w. inversion Hx; subst x. exact E.
  - apply H2. intros v [<-|[<-|[]]]; discriminate.
Qed.

(* ---- C48: flags ---- *)

(* After any history of calls that do not abort, get() of a key that has been
   created is the last value given to it; creating gives a new key with its value;
   setting aborts exactly for keys that do not exist.  get() of such a key is an access out of
   bounds. *)
Theorem C48_flags : forall D (h : list (flag_op D)) f, flag_run no_flags h = Ok f ->
  (forall k v, last_value (rev h) k = Some v -> flag_get f k = Ok v) /\
  (forall v, let '(f', k) := flag_create f v in
     last_value (rev h) k = None /\ flag_get f' k = Ok v /\
     forall k', k' <> k -> flag_get f' k' = flag_get f k') /\
  (forall k v, last_value (rev h) k = None -> flag_set f k v = Abort) /\
  (forall k v x, last_value (rev h) k = Some x -> exists f', flag_set f k v = Ok f' /\ flag_get f' k = Ok v /\
     forall k', k' <> k -> flag_get f' k' = flag_get f k').
Proof.
  intros D h f E. destruct (flag_run_ok h f E) as (Hl & Hg). unfold flag_get, rd, flag_set, flag_create. split; [|split; [|split]].
  - intros k v H. rewrite Hg, H. reflexivity.
  - intros v. rewrite <- Hg. split; [apply nth_error_None; lia|]. split; [rewrite nth_error_app2, Nat.sub_diag by lia; reflexivity|].
    intros k' Hk'. replace (nth_error (f ++ [v]) k') with (nth_error f k'); [reflexivity|]. destruct (Nat.lt_ge_cases k' (List.length f)).
    + symmetry. apply nth_error_app1. auto.
    + rewrite (proj2 (nth_error_None f k')) by lia. symmetry. apply nth_error_None. rewrite app_length. cbn. lia.
  - intros k v H. rewrite <- Hg in H. apply nth_error_None in H. replace (List.length f <=? k) with true by lia. reflexivity.
  - intros k v x H. rewrite <- Hg in H. apply nth_error_lt_inv in H. replace (List.length f <=? k) with false by lia. rewrite wr_ok by auto. eexists. split; [reflexivity|].
    split; [rewrite nth_error_upd_eq by auto; reflexivity|]. intros k' Hk'. rewrite nth_error_upd_ne by auto. reflexivity.
Qed.
Print Assumptions C48_flags.
(* a history fails only by aborting, at the first key set that does not exist *)
Theorem C48_histories : forall D (h : list (flag_op D)), (exists f, flag_run no_flags h = Ok f) \/ flag_run no_flags h = Abort.
Proof. intros D h. apply flag_run_total. Qed.
Print Assumptions C48_histories.
Example C48_nonvacuous : exists f, flag_run no_flags [Create 1; Create 2; SetKey 0 5; Create 3; SetKey 2 7; SetKey 0 6] = Ok f /\
  flag_get f 0 = Ok 6 /\ flag_get f 1 = Ok 2 /\ flag_get f 2 = Ok 7 /\ flag_set f 3 0 = Abort /\
  last_value (rev [Create 1; Create 2; SetKey 0 5; Create 3; SetKey 2 7; SetKey 0 6]) 0 = Some 6.
Proof. eexists. split; [reflexivity|]. repeat split. Qed.
