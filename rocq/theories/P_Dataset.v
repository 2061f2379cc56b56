(* C74: datasets of jobs. *)
From Verif Require Import Base M_Dataset L_Dataset.

Section Dataset.
Context {B : Type} (header : list B) (job : nat -> nat) (result : nat -> list B).
Notation run := (star (step header job result (one_per_job job))).

(* As long as no two processes run the same job at the same time, whatever the
   number of processes, the interleaving of their system calls, and the points at
   which they are killed: a record that exists is complete, *)
Theorem C74_complete : forall k s j c, k <> PlainFile -> run (start_with k) s -> record s j = Some c ->
  exists p, job p = j /\ c = header ++ result p.
Proof.
  intros k s j c Hk H Hr. destruct (inv_star header job result _ s (inv_start header job result k Hk) H) as [I _].
  unfold record in Hr. destruct (main (disk s) j) as [i|] eqn:Em; [|discriminate]. injection Hr as <-. destruct (i_main _ _ _ s I j i Em) as (_ & p & Hp & Hc). eauto.
Qed.
(* it stays as it is, *)
Theorem C74_stays : forall k s s' j, k <> PlainFile -> run (start_with k) s -> run s s' -> record s j <> None -> record s' j = record s j.
Proof.
  intros k s s' j Hk H H' Hr. destruct (inv_star header job result _ s (inv_start header job result k Hk) H) as [I _].
  destruct (inv_star header job result s s' I H') as [_ Hs]. auto.
Qed.
(* a process that has ended after writing finds what it wrote in its record, one
   that has been told that the record existed finds a record, and none aborts. *)
Theorem C74_ended : forall k s p, k <> PlainFile -> run (start_with k) s ->
  (procs s p = Written -> record s (job p) = Some (header ++ result p)) /\
  (procs s p = Skipped -> exists q, job q = job p /\ record s (job p) = Some (header ++ result q)) /\
  procs s p <> Aborted.
Proof.
  intros k s p Hk H. destruct (inv_star header job result _ s (inv_start header job result k Hk) H) as [I _].
  pose proof (i_at _ _ _ s I p) as HA. split; [|split]; intros E; rewrite E in HA; cbn [at_] in HA.
  - destruct HA as (i & Hm & Hc). unfold record. rewrite Hm. cbn. congruence.
  - unfold record. destruct (main (disk s) (job p)) as [i|] eqn:Em; [|congruence]. destruct (i_main _ _ _ s I (job p) i Em) as (_ & q & Hq & Hc). exists q. split; [auto|]. cbn. congruence.
  - contradiction.
Qed.
(* dataset_record_exists tells whether there is a complete record, and beside a
   record there is no temporary file. *)
Theorem C74_exists : forall k s j, k <> PlainFile -> run (start_with k) s ->
  (dataset_record_exists s j = true <-> exists p, job p = j /\ record s j = Some (header ++ result p)) /\
  (record s j <> None -> tmp (disk s) j = None).
Proof.
  intros k s j Hk H. destruct (inv_star header job result _ s (inv_start header job result k Hk) H) as [I _]. split; [split|].
  - unfold dataset_record_exists. intros E. destruct (main (disk s) j) as [i|] eqn:Em; [|discriminate]. destruct (i_main _ _ _ s I j i Em) as (_ & p & Hp & Hc).
    exists p. split; [auto|]. unfold record. rewrite Em. cbn. congruence.
  - intros (p & _ & E). unfold record in E. unfold dataset_record_exists. destruct (main (disk s) j); [reflexivity|discriminate].
  - intros Hr. apply (notmp_star header job result (start_with k) s); auto; [apply inv_start; auto|]. unfold record in Hr. destruct (main (disk s) j); [discriminate|contradiction].
Qed.
(* A process that is running can go on, and ends after a bounded number of its
   own system calls, whatever it finds in the directory at each of them.  So a
   job that was killed can be run again. *)
Theorem C74_progress : forall p (c : @pc B), live c -> 
  (forall d, exists d' c', advance header job result p d c = Some (d', c')) /\
  exists n, forall (found : nat -> @fs B) (at_ : nat -> pc), at_ 0 = c ->
    (forall i, live (at_ i) -> exists d', advance header job result p (found i) (at_ i) = Some (d', at_ (S i))) ->
    exists m, m <= n /\ ~ live (at_ m).
Proof.
  intros p c Hl. split.
  { intros d. destruct c as [| | | | | | | | |i [|b r]| | | | | | | | |]; cbn in Hl |- *; try contradiction; repeat match goal with |- context [match ?x with _ => _ end] => destruct x end; eauto. }
  set (cost := fun c : @pc B => match c with
    | CheckDir => 16 | IsDir => 13 | MkDir => 15 | RecheckDir => 14 | CheckRecord => 12 | DeleteTmp => 11 | CheckTmp => 10
    | OpenTmp _ => 8 | Writing _ r => 6 + length r | CloseCheck => 5 | RenameCheckDest => 4 | RenameDelete => 3 | RenameCheckOrig => 2 | Rename => 1 | _ => 0 end
    + match c with Writing _ _ | CloseCheck | RenameCheckDest | RenameDelete | RenameCheckOrig | Rename | Written | Skipped | Aborted | Dead | NotStarted => 0 | _ => length header + length (result p) end).
  exists (cost c). intros f. remember (cost c) as n eqn:En. assert (Hn : cost c <= n) by lia. clear En. revert c Hl f Hn.
  induction n as [|n IH]; intros c Hl f Hn g Hg Hs.
  - exists 0. split; [lia|]. rewrite Hg. destruct c; cbn in Hn |- *; auto; lia.
  - destruct (Nat.eq_dec (match g 0 with NotStarted | Written | Skipped | Aborted | Dead => 0 | _ => 1 end) 0) as [E|E].
    + exists 0. split; [lia|]. destruct (g 0); cbn in *; try discriminate; auto.
    + assert (L : live (g 0)) by (destruct (g 0); cbn in *; auto; lia). destruct (Hs 0 L) as (d' & Hd).
      assert (Hc : cost (g 1) < cost c).
      { rewrite Hg in Hd. set (d0 := f 0) in *. clearbody d0. clear - Hd. destruct c; cbn [advance] in Hd; try discriminate.
        all: repeat match type of Hd with context [match ?x with _ => _ end] => destruct x end; try discriminate; injection Hd; intros <- _; unfold cost; cbn; rewrite ?app_length; lia. }
      destruct (Nat.eq_dec (match g 1 with NotStarted | Written | Skipped | Aborted | Dead => 0 | _ => 1 end) 0) as [E1|E1].
      { exists 1. split; [lia|]. destruct (g 1); cbn in *; try discriminate; auto. }
      assert (L1 : live (g 1)) by (destruct (g 1); cbn in *; auto; lia).
      destruct (IH (g 1) L1 (fun i => f (S i)) ltac:(lia) (fun i => g (S i)) eq_refl) as (m & Hm & Hm'); [intros i Li; apply (Hs (S i)); auto|].
      exists (S m). split; [lia|auto].
Qed.

(* if the name of the dataset is that of a file, every process aborts and nothing
   is changed *)
Theorem C74_not_a_directory : forall s, star (step header job result anytime) (start_with PlainFile) s ->
  disk s = disk (start_with PlainFile) /\ forall p, procs s p = NotStarted \/ procs s p = CheckDir \/ procs s p = IsDir \/ procs s p = Aborted \/ procs s p = Dead.
Proof.
  intros s H. remember (start_with PlainFile) as s0 eqn:E0. induction H as [s|s s1 s2 H IH Hs]; subst; [cbn; auto|]. destruct (IH eq_refl) as [D P].
  assert (HP : forall p c, (c = NotStarted \/ c = CheckDir \/ c = IsDir \/ c = Aborted \/ c = Dead) -> forall q, let x := put (procs s1) p c q in x = NotStarted \/ x = CheckDir \/ x = IsDir \/ x = Aborted \/ x = Dead).
  { intros p c Hc q. unfold put. destruct (q =? p); auto. }
  destruct Hs as [s1 p Hp _|s1 p d c Hc|s1 p Hl]; cbn [disk procs]; (split; [|try (apply HP; tauto)]); auto.
  - destruct (P p) as [E|[E|[E|[E|E]]]]; rewrite E in Hc; cbn [advance] in Hc; try discriminate; injection Hc as <- <-; auto.
  - destruct (P p) as [E|[E|[E|[E|E]]]]; rewrite E in Hc; cbn [advance] in Hc; try discriminate; rewrite D in Hc; cbn in Hc; injection Hc as <- <-; apply HP; auto.
Qed.
End Dataset.
Print Assumptions C74_complete.
Print Assumptions C74_stays.
Print Assumptions C74_ended.
Print Assumptions C74_exists.
Print Assumptions C74_progress.
Print Assumptions C74_not_a_directory.

(* A schedule: process p starts, makes its next system call, or is killed. *)
Inductive act := Start (p : nat) | Call (p : nat) | Kill (p : nat).
Definition exec1 {B} (header : list B) job result (s : @sys B) (a : act) : option sys :=
  match a with
  | Start p => match procs s p with NotStarted => Some (mkSys (disk s) (put (procs s) p CheckDir)) | _ => None end
  | Call p => match advance header job result p (disk s) (procs s p) with Some (d, c) => Some (mkSys d (put (procs s) p c)) | None => None end
  | Kill p => match procs s p with NotStarted | Written | Skipped | Aborted | Dead => None | _ => Some (mkSys (disk s) (put (procs s) p Dead)) end
  end.
Fixpoint exec {B} (header : list B) job result (s : @sys B) (l : list act) : option sys :=
  match l with [] => Some s | a :: l => match exec1 header job result s a with Some s => exec header job result s l | None => None end end.
Lemma exec_star {B} (header : list B) job result (may : @sys B -> nat -> Prop) l : forall s0 s s',
  (forall l1 p l2 s1, l = l1 ++ Start p :: l2 -> exec header job result s l1 = Some s1 -> may s1 p) ->
  star (step header job result may) s0 s -> exec header job result s l = Some s' ->
  star (step header job result may) s0 s'.
Proof.
  induction l as [|a l IH]; intros s0 s s' M H E; cbn [exec] in E; [injection E as <-; auto|].
  destruct (exec1 header job result s a) as [s1|] eqn:E1; [|discriminate]. apply (IH s0 s1); [intros l1 p l2 s2 -> E2; apply (M (a :: l1) p l2); [auto|cbn [exec]; rewrite E1; auto]| |auto]. apply (star_step _ s0 s); [auto|].
  destruct a as [p|p|p]; cbn [exec1] in E1.
  - destruct (procs s p) eqn:Ep; try discriminate. injection E1 as <-. apply s_start; [auto|apply (M [] p l); auto].
  - destruct (advance header job result p (disk s) (procs s p)) as [[d c]|] eqn:Ea; [|discriminate]. injection E1 as <-. apply s_call. auto.
  - assert (L : live (procs s p)) by (destruct (procs s p); try discriminate; exact I). assert (E2 : s1 = mkSys (disk s) (put (procs s) p Dead)) by (destruct (procs s p); try discriminate; congruence). rewrite E2. apply s_kill. auto.
Qed.
Definition calls (n p : nat) : list act := repeat (Call p) n.

(* Two processes with the same job.  The second starts to write into the file of
   the first: the record is neither what the one nor what the other wrote. *)
Theorem C74_mixed_refuted : exists (header : list nat) job result s c,
  star (step header job result anytime) (start_with Directory) s /\ record s 0 = Some c /\ procs s 0 = Written /\
  forall p, c <> header ++ result p.
Proof.
  (* process 1 deletes the temporary file before process 0 creates it and looks for it after that *)
  pose (l := [Start 0; Start 1] ++ calls 3 0 ++ calls 4 1 ++ calls 3 0 ++ calls 3 1 ++ calls 8 0).
  destruct (exec [9] (fun _ => 0) (fun p => [p; p]) (start_with Directory) l) as [s|] eqn:E; [|vm_compute in E; discriminate].
  exists [9], (fun _ => 0), (fun p => [p; p]), s. eexists. split; [eapply exec_star; [intros; exact I|apply star_refl|exact E]|].
  vm_compute in E. injection E as <-. split; [vm_compute; reflexivity|]. split; [reflexivity|]. intros p. cbn. intros H. injection H. lia.
Qed.
(* The second deletes the file of the first, which ends as if it had written its
   record, and is killed: there is no record. *)
Theorem C74_lost_refuted : exists (header : list nat) job result s,
  star (step header job result anytime) (start_with Directory) s /\ procs s 0 = Written /\ procs s 1 = Dead /\ record s (job 0) = None.
Proof.
  pose (l := [Start 0; Start 1] ++ calls 3 1 ++ calls 9 0 ++ calls 1 1 ++ calls 2 0 ++ [Kill 1]).
  destruct (exec [9] (fun _ => 0) (fun p => [p; p]) (start_with Directory) l) as [s|] eqn:E; [|vm_compute in E; discriminate].
  exists [9], (fun _ => 0), (fun p => [p; p]), s. split; [eapply exec_star; [intros; exact I|apply star_refl|exact E]|].
  vm_compute in E. injection E as <-. repeat split; vm_compute; reflexivity.
Qed.
Print Assumptions C74_mixed_refuted.
Print Assumptions C74_lost_refuted.

(* Process 0 is killed while it writes the record of job 0, process 1 does job 1
   meanwhile, process 2 does job 0 again, process 3 finds that it has been done. *)
Example C74_nonvacuous :
  let job := fun p => match p with 1 => 1 | _ => 0 end in let result := fun p => [p; p] in
  exists s, star (step [9] job result (one_per_job job)) (start_with Absent) s /\
    procs s 0 = Dead /\ procs s 1 = Written /\ procs s 2 = Written /\ procs s 3 = Skipped /\
    record s 0 = Some [9; 2; 2] /\ record s 1 = Some [9; 1; 1].
Proof.
  intros job result.
  pose (l := [Start 0; Start 1] ++ calls 9 0 ++ calls 4 1 ++ [Kill 0; Start 2] ++ calls 14 2 ++ calls 10 1 ++ [Start 3] ++ calls 3 3).
  destruct (exec [9] job result (start_with Absent) l) as [s|] eqn:E; [|vm_compute in E; discriminate].
  exists s. split.
  - eapply exec_star; [|apply star_refl|exact E]. intros l1 p l2 s1 El E1 q Hq Hl.
    assert (K : forall n, n < length l -> match nth_error l n with
        | Some (Start p) => match exec [9] job result (start_with Absent) (firstn n l) with
            | Some s => forall q, job q = job p -> ~ live (procs s q) | None => True end
        | _ => True end).
    { clear. intros n Hn. cbn in Hn. do 60 (destruct n as [|n]; [vm_compute; try exact I; intros [|[|[|[|q]]]]; cbn; auto; discriminate|]). exfalso. lia. }
    assert (Hn : length l1 < length l) by (rewrite El, app_length; cbn [length]; lia).
    specialize (K (length l1) Hn). rewrite El in K. rewrite nth_error_app2, Nat.sub_diag in K by lia. cbn [nth_error] in K.
    rewrite firstn_app, Nat.sub_diag, firstn_all, firstn_O, app_nil_r, E1 in K. apply (K q Hq Hl).
  - vm_compute in E. injection E as <-. repeat split; vm_compute; reflexivity.
Qed.
