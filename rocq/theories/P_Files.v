(* C94: the functions on files.  Vocabulary: S_Files.v *)
From Verif Require Import Base S_Files M_Files.

Lemma set_at s f x n : node_at (set_node s f x) n = if n =? f then x else node_at s n.
Proof. reflexivity. Qed.
Lemma exists_accessible s f : file_exists s f = true <-> accessible s f.
Proof.
  unfold file_exists, accessible. destruct (node_at s f) as [x|]; split.
  - intros H. apply andb_true_iff in H. exists x. tauto.
  - intros (y & E & H1 & H2). injection E as ->. rewrite H1, H2. reflexivity.
  - discriminate.
  - intros (y & E & _). discriminate.
Qed.

(* file_exists: what it finds exists *)
Theorem C94_exists_partial : forall s f, file_exists s f = true -> node_at s f <> None.
Proof. intros s f H. apply exists_accessible in H as (x & E & _). congruence. Qed.
Print Assumptions C94_exists_partial.
(* but a file that may be read and not written does not exist *)
Theorem C94_exists_refuted : forall s f x, node_at s f = Some x -> writable_by x = false -> file_exists s f = false.
Proof. intros s f x E H. unfold file_exists. rewrite E, H. apply andb_false_r. Qed.
Print Assumptions C94_exists_refuted.
(* delete_file: true exactly when the file was there and no longer is *)
Theorem C94_delete : forall s f, let '(ok, s') := delete_file s f in
  same_but s s' [f] /\ (ok = true -> node_at s f <> None /\ node_at s' f = None) /\ (ok = false -> same_files s s') /\
  (ok = true <-> dir_writable s = true /\ exists x, node_at s f = Some x /\ kind_of x <> Dir).
Proof.
  intros s f. unfold delete_file.
  assert (R : forall l, same_but s s l) by (intros l; split; auto).
  destruct (node_at s f) as [x|] eqn:E.
  - assert (D : kind_of x = Dir \/ kind_of x <> Dir) by (destruct (kind_of x); auto; right; discriminate).
    destruct D as [D|D].
    + rewrite D. split; [apply R|]. split; [discriminate|]. split; [intros _; apply R|]. split; [discriminate|]. intros (_ & y & Ey & Hy). injection Ey as <-. contradiction.
    + replace (match kind_of x with Dir => (false, s) | _ => if dir_writable s then (true, set_node s f None) else (false, s) end)
        with (if dir_writable s then (true, set_node s f None) else (false, s)) by (destruct (kind_of x); try reflexivity; contradiction).
      destruct (dir_writable s) eqn:W.
      * split; [split; [reflexivity|]; intros n Hn; rewrite set_at; destruct (Nat.eqb_spec n f) as [->|]; [destruct Hn; left; auto|reflexivity]|].
        split; [intros _; split; [congruence|]; rewrite set_at, Nat.eqb_refl; reflexivity|]. split; [discriminate|]. split; [intros _; split; eauto|auto].
      * split; [apply R|]. split; [discriminate|]. split; [intros _; apply R|]. split; [discriminate|]. intros [X _]. discriminate.
  - split; [apply R|]. split; [discriminate|]. split; [intros _; apply R|]. split; [discriminate|]. intros (_ & y & Ey & _). discriminate.
Qed.
Print Assumptions C94_delete.
(* make_directory: true exactly when it creates the directory *)
Theorem C94_make_directory : forall s f, let '(ok, s') := make_directory s f in
  same_but s s' [f] /\ (ok = true -> node_at s f = None /\ exists x, node_at s' f = Some x /\ kind_of x = Dir) /\ (ok = false -> same_files s s') /\
  (ok = true <-> dir_writable s = true /\ node_at s f = None).
Proof.
  intros s f. unfold make_directory. assert (R : forall l, same_but s s l) by (intros l; split; auto).
  destruct (node_at s f) as [x|] eqn:E; [|destruct (dir_writable s) eqn:W].
  - split; [apply R|]. split; [discriminate|]. split; [intros _; apply R|]. split; [discriminate|]. intros [_ X]. discriminate.
  - split; [split; [reflexivity|]; intros n Hn; rewrite set_at; destruct (Nat.eqb_spec n f) as [->|]; [destruct Hn; left; auto|reflexivity]|].
    split; [intros _; split; [auto|]; eexists; rewrite set_at, Nat.eqb_refl; split; reflexivity|]. split; [discriminate|]. tauto.
  - split; [apply R|]. split; [discriminate|]. split; [intros _; apply R|]. split; [discriminate|]. intros [X _]. discriminate.
Qed.
Print Assumptions C94_make_directory.

(* isdir: true for directories, and false for regular files, pipes and
   terminals, whatever the permissions *)
Lemma low_bits t p : (0 <= p < 4096)%Z -> Z.land (type_bits t + p) S_IFDIR = Z.land (type_bits t) S_IFDIR.
Proof.
  intros Hp. assert (T : exists q : Z, (type_bits t = q * 2 ^ 12)%Z) by (destruct t; [exists 8%Z|exists 4%Z|exists 2%Z|exists 6%Z|exists 1%Z|exists 12%Z]; reflexivity).
  destruct T as (q & ->). unfold S_IFDIR. change 16384%Z with (4 * 2 ^ 12)%Z.
  apply Z.bits_inj'. intros n Hn. rewrite !Z.land_spec. destruct (Z.ltb_spec n 12).
  - rewrite (Z.mul_pow2_bits_low 4) by lia. rewrite !andb_false_r. reflexivity.
  - f_equal. replace n with ((n - 12) + 12)%Z by lia. rewrite <- !Z.div_pow2_bits by lia. f_equal.
    rewrite Z.div_mul by lia. rewrite Z.div_add_l by lia. rewrite (Z.div_small p) by lia. lia.
Qed.
Theorem C94_isdir_partial : forall s perm f, (0 <= perm f < 4096)%Z ->
  (isdir s perm f = true <-> exists x, node_at s f = Some x /\ (kind_of x = Dir \/ kind_of x = BlockDev \/ kind_of x = Socket)).
Proof.
  intros s perm f Hp. unfold isdir. destruct (node_at s f) as [x|]; split.
  - rewrite low_bits by auto. intros H. exists x. split; [reflexivity|]. destruct (kind_of x); auto; discriminate H.
  - intros (y & E & H). injection E as <-. rewrite low_bits by auto. destruct H as [H|[H|H]]; rewrite H; reflexivity.
  - discriminate.
  - intros (y & E & _). discriminate.
Qed.
Print Assumptions C94_isdir_partial.
(* sockets and disks are directories too *)
Theorem C94_isdir_refuted : forall s perm f x, (0 <= perm f < 4096)%Z -> node_at s f = Some x -> kind_of x = Socket \/ kind_of x = BlockDev -> isdir s perm f = true.
Proof. intros s perm f x Hp E H. apply C94_isdir_partial; auto. exists x. tauto. Qed.
Print Assumptions C94_isdir_refuted.

(* rename_file touches no other names, whatever happens *)
Lemma delete_frame s f : same_but s (snd (delete_file s f)) [f].
Proof. pose proof (C94_delete s f) as H. destruct (delete_file s f). apply H. Qed.
Lemma rename_frame s a b : same_but s (snd (rename s a b)) [a; b].
Proof.
  assert (R : same_but s s [a; b]) by (split; auto). unfold rename. destruct (node_at s a) as [x|]; [|exact R]. destruct (a =? b); [exact R|]. destruct (negb (dir_writable s)); [exact R|].
  assert (G : same_but s (set_node (set_node s a None) b (Some x)) [a; b]).
  { split; [reflexivity|]. intros n Hn. rewrite !set_at. destruct (Nat.eqb_spec n b) as [->|]; [destruct Hn; right; left; auto|]. destruct (Nat.eqb_spec n a) as [->|]; [destruct Hn; left; auto|reflexivity]. }
  destruct (node_at s b) as [y|]; [|exact G]. destruct (kind_of x); try exact R; destruct (kind_of y); exact R || exact G.
Qed.
Theorem C94_rename_frame : forall s orig dest overwrite, same_but s (snd (rename_file s orig dest overwrite)) [orig; dest].
Proof.
  intros s a b o. assert (T : forall s1, same_but s s1 [b] -> same_but s (snd (rename s1 a b)) [a; b]).
  { intros s1 [H1 H2]. destruct (rename_frame s1 a b) as [H3 H4]. split; [congruence|]. intros n Hn. rewrite H4 by auto. apply H2. intros [->|[]]. apply Hn. right. left. auto. }
  assert (W : forall s1, same_but s s1 [b] -> same_but s s1 [a; b]) by (intros s1 [H1 H2]; split; auto; intros n Hn; apply H2; intros [->|[]]; apply Hn; right; left; auto).
  assert (R : same_but s s [b]) by (split; auto).
  unfold rename_file. destruct (file_exists s b).
  - destruct o; cbn [negb]; [|apply W, R]. pose proof (delete_frame s b) as D. destruct (delete_file s b) as [ok s1]. cbn [snd] in D. destruct ok; cbn [negb]; [|apply W, D].
    destruct (file_exists s1 a); cbn [negb]; [|apply W, D]. pose proof (T s1 D) as T1. destruct (rename s1 a b). exact T1.
  - destruct (file_exists s a); cbn [negb]; [|apply W, R]. pose proof (T s R) as T1. destruct (rename s a b). exact T1.
Qed.
Print Assumptions C94_rename_frame.
(* it moves the file: to a name that is free, or over a file that may be written *)
Theorem C94_rename_partial : forall s orig dest overwrite x, orig <> dest -> dir_writable s = true ->
  node_at s orig = Some x -> accessible s orig -> kind_of x <> Dir ->
  node_at s dest = None \/ overwrite = true /\ accessible s dest /\ (forall y, node_at s dest = Some y -> kind_of y <> Dir) ->
  exists s', rename_file s orig dest overwrite = (Ok true, s') /\ node_at s' dest = Some x /\ node_at s' orig = None /\ same_but s s' [orig; dest].
Proof.
  intros s a b o x Hab W Ha Aa Hx Hb. pose proof (C94_rename_frame s a b o) as Fr.
  assert (Mv : forall s1, dir_writable s1 = true -> node_at s1 a = Some x -> node_at s1 b = None -> rename s1 a b = (true, set_node (set_node s1 a None) b (Some x))).
  { intros s1 W1 A1 B1. unfold rename. rewrite A1, B1, W1. replace (a =? b) with false by lia. reflexivity. }
  assert (Fin : forall s1, node_at (set_node (set_node s1 a None) b (Some x)) b = Some x /\ node_at (set_node (set_node s1 a None) b (Some x)) a = None).
  { intros s1. rewrite !set_at, !Nat.eqb_refl. replace (a =? b) with false by lia. auto. }
  apply exists_accessible in Aa. unfold rename_file in *. destruct Hb as [Hb|(-> & Ab & Hd)].
  - assert (E0 : file_exists s b = false) by (unfold file_exists; rewrite Hb; reflexivity). rewrite E0 in *. rewrite Aa in *. cbn [negb] in *. rewrite (Mv s W Ha Hb) in *. eexists. split; [reflexivity|]. split; [apply Fin|]. split; [apply Fin|exact Fr].
  - apply exists_accessible in Ab. rewrite Ab in *. cbn [negb] in *.
    assert (D : delete_file s b = (true, set_node s b None)).
    { apply exists_accessible in Ab as (y & Ey & _). unfold delete_file. rewrite Ey, W. specialize (Hd y Ey). destruct (kind_of y); reflexivity || contradiction. }
    rewrite D in *. cbn [negb] in *.
    assert (A1 : file_exists (set_node s b None) a = true) by (unfold file_exists; rewrite set_at; replace (a =? b) with false by lia; exact Aa). rewrite A1 in *. cbn [negb] in *.
    assert (M1 := Mv (set_node s b None) W). rewrite !set_at, Nat.eqb_refl in M1. replace (a =? b) with false in M1 by lia. rewrite (M1 Ha eq_refl) in *. eexists. split; [reflexivity|]. split; [apply Fin|]. split; [apply Fin|exact Fr].
Qed.
Print Assumptions C94_rename_partial.
(* without overwrite it refuses, and changes nothing, if the destination may be read and written *)
Theorem C94_rename_keeps_partial : forall s orig dest, accessible s dest -> rename_file s orig dest false = (Abort, s).
Proof. intros s a b H. apply exists_accessible in H. unfold rename_file. rewrite H. reflexivity. Qed.
Print Assumptions C94_rename_keeps_partial.
(* a destination that may not be written is replaced without being asked to *)
Theorem C94_rename_readonly_refuted : forall s orig dest x y, orig <> dest -> dir_writable s = true ->
  node_at s orig = Some x -> accessible s orig -> kind_of x <> Dir -> node_at s dest = Some y -> kind_of y <> Dir -> writable_by y = false ->
  exists s', rename_file s orig dest false = (Ok true, s') /\ node_at s' dest = Some x.
Proof.
  intros s a b x y Hab W Ha Aa Hx Hb Hy Hw. apply exists_accessible in Aa. unfold rename_file.
  rewrite (C94_exists_refuted s b y Hb Hw), Aa. cbn [negb]. unfold rename. rewrite Ha, Hb, W. replace (a =? b) with false by lia. cbn [negb].
  exists (set_node (set_node s a None) b (Some x)). split; [|rewrite set_at, Nat.eqb_refl; reflexivity]. destruct (kind_of x), (kind_of y); reflexivity || contradiction.
Qed.
Print Assumptions C94_rename_readonly_refuted.
(* with overwrite the destination is deleted before the original is looked for:
   both are lost if the original is not there, may not be written, or is the
   destination *)
Theorem C94_rename_lost_refuted : forall s orig dest y, dir_writable s = true ->
  node_at s dest = Some y -> accessible s dest -> kind_of y <> Dir -> ~ accessible s orig \/ orig = dest ->
  exists s', rename_file s orig dest true = (Abort, s') /\ node_at s' dest = None.
Proof.
  intros s a b y W Hb Ab Hy Ha. apply exists_accessible in Ab. unfold rename_file. rewrite Ab. cbn [negb].
  assert (D : delete_file s b = (true, set_node s b None)) by (unfold delete_file; rewrite Hb, W; destruct (kind_of y); reflexivity || contradiction).
  rewrite D. cbn [negb]. assert (A1 : file_exists (set_node s b None) a = false).
  { unfold file_exists. rewrite set_at. destruct (Nat.eqb_spec a b) as [->|N]; [reflexivity|]. destruct Ha as [Ha|Ha]; [|contradiction]. rewrite <- exists_accessible in Ha. unfold file_exists in Ha. destruct (node_at s a) as [z|]; [|reflexivity]. destruct (readable_by z && writable_by z); [destruct Ha; reflexivity|reflexivity]. }
  rewrite A1. cbn [negb]. eexists. split; [reflexivity|]. rewrite set_at, Nat.eqb_refl. reflexivity.
Qed.
Print Assumptions C94_rename_lost_refuted.

(* the theorems apply: two files, one of which may not be written *)
Definition ex_files : files := mkFiles (fun n => match n with 0 => Some (mkNode Regular true true [1%Z]) | 1 => Some (mkNode Regular true false [2%Z]) | 2 => Some (mkNode Regular true true [3%Z]) | 3 => Some (mkNode Socket true true []) | _ => None end) true.
Example C94_meets :
  fst (rename_file ex_files 0 1 false) = Ok true /\ option_map bytes (node_at (snd (rename_file ex_files 0 1 false)) 1) = Some [1%Z] /\
  fst (rename_file ex_files 0 2 false) = Abort /\ fst (rename_file ex_files 0 2 true) = Ok true /\ fst (rename_file ex_files 0 7 false) = Ok true /\
  fst (rename_file ex_files 1 2 true) = Abort /\ node_at (snd (rename_file ex_files 1 2 true)) 2 = None /\
  node_at (snd (rename_file ex_files 0 0 true)) 0 = None /\ isdir ex_files (fun _ => 511%Z) 3 = true /\ isdir ex_files (fun _ => 511%Z) 0 = false.
Proof. repeat split. Qed.
