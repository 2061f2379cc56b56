(* C93: the Matlab reader of data sets.  Vocabulary: S_Sdf.v, S_Matsdf.v, S_Matset.v *)
From Coq Require Import Permutation.
From Verif Require Import Base Spec S_Sdf S_Pysdf S_Matsdf S_Matset M_Sdf L_Sdf L_Sdf2 P_Sdf M_Pysdf L_Pysdf M_Matsdf L_Matsdf P_Matsdf M_Matset L_Matset.
Import S_Matsdf.
Local Open Scope Z_scope.

(* the bytes of a new file in which the library has written the records rs *)
Definition made (rs : list (list Z * value)) (file : list Z) : Prop :=
  exists m s s' tr, (m = Shared /\ main s = None \/ m = Overwrite \/ m = Paranoid) /\ session m rs s = (Ok tt, s', tr) /\ main s' = Some file.
Lemma made_bytes rs file : made rs file -> file = header ++ records rs.
Proof.
  intros (m & s & s' & tr & Hm & E & F).
  assert (Hs : exists t tr, session m rs s = (Ok tt, mkFS (Some (header ++ records rs)) t, tr)).
  { destruct Hm as [[-> Hm]|[->| ->]].
    - destruct (session_shared rs s) as (tr' & E'). rewrite Hm in E'. eauto.
    - destruct (session_overwrite rs s) as (tr' & E'). eauto.
    - destruct (session_paranoid rs s) as (tr' & E' & _). eauto. }
  destruct Hs as (t & tr' & E'). assert (X : Some (header ++ records rs) = Some file) by (rewrite <- F; apply (f_equal (fun x => main (snd (fst x)))) in E; rewrite E' in E; exact E). congruence.
Qed.
Lemma made_exists rs : exists file, made rs file.
Proof.
  destruct (session_paranoid rs (mkFS None None)) as (tr & E & _). exists (header ++ records rs), Paranoid, (mkFS None None), (mkFS (Some (header ++ records rs)) None), tr. split; [auto|]. split; [exact E|reflexivity].
Qed.

Lemma files_ok k depth avoid d l : forall (files : list (list Z * list Z)) rss pre data tag endian,
  map fst (filter (fun e => negb (snd e)) l) = map fst files ->
  Forall (fun f => bytes_at k (path d (fst f)) = Some (snd f)) files -> Forall2 (fun f rs => made rs (snd f)) files rss ->
  holds data (wanted avoid pre) -> Forall mat_record (wanted avoid pre) -> Forall (readable avoid) (concat rss) -> consistent (wanted avoid (pre ++ concat rss)) ->
  exists data', set_files k (S (S depth)) d l (data, avoid) tag endian = Ok (data', avoid) /\ holds data' (wanted avoid (pre ++ concat rss)).
Proof.
  induction l as [|[n b] l IH]; intros files rss pre data tag endian Hn Hb Hm Hd Hp Hr Hc.
  - destruct files; [|discriminate Hn]. inversion Hm; subst. cbn [concat] in *. rewrite app_nil_r in *. exists data. auto.
  - cbn [set_files]. destruct b; [apply (IH files rss); auto|]. cbn [filter snd negb map fst] in Hn. destruct files as [|f files]; [discriminate Hn|].
    injection Hn as Hn1 Hn. inversion Hb as [|? ? B Hb']; subst. inversion Hm as [|? rs ? rss' Hm1 Hm']; subst. cbn [concat] in Hr, Hc. apply Forall_app in Hr as [Hr1 Hr2].
    unfold set_one. change (d ++ [slash] ++ fst f) with (path d (fst f)). rewrite B. apply made_bytes in Hm1. rewrite Hm1.
    assert (Hc1 : consistent (wanted avoid (pre ++ rs))).
    { rewrite app_assoc, wanted_app in Hc. apply consistent_prefix in Hc. exact Hc. }
    destruct (file_ok depth avoid pre rs data tag endian Hd Hp Hr1 Hc1) as (d' & s & Hd' & E). rewrite E. cbn [bind].
    destruct (IH files rss' (pre ++ rs) d' (tag_type s) (big_endian s)) as (data' & E' & H'); auto.
    + rewrite wanted_app. apply Forall_app. split; [exact Hp|]. apply Forall_forall. intros x Hx. apply filter_In in Hx as [Hx _]. rewrite Forall_forall in Hr1. apply Hr1, Hx.
    + rewrite <- app_assoc. exact Hc.
    + exists data'. rewrite <- app_assoc in H'. cbn [concat]. auto.
Qed.
Lemma holds_wanted data avoid rs : holds data (wanted avoid rs) -> forall name,
  get_item data name = if among avoid name then None else match values_of rs name with [] => None | vs => Some (matlab_of double_bits vs) end.
Proof. intros H name. rewrite H, values_wanted. destruct (among avoid name); reflexivity. Qed.

(* All values that the library has written into the files of a directory are
   there, under their names, in the order of the listing; except those in
   SDF_AVOID.  The directory is given by a single name, or by a path that ends
   with a slash.  [readable]: as in C87, and what is to be avoided has elements. *)
Theorem C93_load_partial : forall k depth avoid tag endian d directory files rss, (2 <= depth)%nat ->
  directory = d /\ ~ In slash d \/ directory = d ++ [slash] ->
  has_files k d files -> Forall2 (fun f rs => made rs (snd f)) files rss ->
  Forall (readable avoid) (concat rss) -> consistent (wanted avoid (concat rss)) ->
  exists data, load_dataset k depth avoid tag endian directory = Ok (data, avoid) /\
    forall name, get_item data name =
      if among avoid name then None else match values_of (concat rss) name with [] => None | vs => Some (matlab_of double_bits vs) end.
Proof.
  intros k depth avoid tag endian d directory files rss Hdep Hdir (F1 & F2 & F3) Hm Hr Hc. destruct depth as [|[|depth]]; try lia. unfold load_dataset.
  assert (T : trim directory = d /\ listing k directory = listing k d).
  { destruct Hdir as [[-> H]| ->]; [split; [apply trim_plain; auto|reflexivity]|]. split; [apply trim_slash; intros []|exact F2]. }
  destruct T as [-> ->]. destruct (files_ok k depth avoid d (listing k d) files rss [] [] tag endian) as (data & E & H); auto; [intros n; reflexivity|constructor|].
  exists data. split; [exact E|]. apply holds_wanted, H.
Qed.
Print Assumptions C93_load_partial.
(* one field *)
Theorem C93_variable_partial : forall k depth tag endian d directory files rss f, (2 <= depth)%nat ->
  directory = d /\ ~ In slash d \/ directory = d ++ [slash] ->
  has_files k d files -> Forall2 (fun f rs => made rs (snd f)) files rss ->
  Forall mat_record (concat rss) -> consistent (concat rss) ->
  load_variable k depth [] tag endian directory f = match values_of (concat rss) f with [] => Abort | vs => Ok (matlab_of double_bits vs) end.
Proof.
  intros k depth tag endian d directory files rss f Hdep Hdir F Hm Hr Hc.
  assert (W : wanted [] (concat rss) = concat rss) by (unfold wanted; generalize (concat rss); induction l as [|x l IH]; cbn; [reflexivity|f_equal; exact IH]).
  destruct (C93_load_partial k depth [] tag endian d directory files rss) as (data & E & H); auto.
  - eapply Forall_impl; [|exact Hr]. intros r Hx. split; [exact Hx|discriminate].
  - rewrite W. exact Hc.
  - unfold load_variable. rewrite E. cbn [bind fst]. rewrite H. cbn [among existsb]. destruct (values_of (concat rss) f); reflexivity.
Qed.
Print Assumptions C93_variable_partial.

(* A path p/n that does not end with a slash: dir lists p/n, but the files are
   opened in p.  They are not there ... *)
Theorem C93_nested_refuted : forall k depth avoid tag endian p n f files, n <> [] -> ~ In slash n ->
  has_files k (path p n) (f :: files) -> bytes_at k (path p (fst f)) = None ->
  load_dataset k depth avoid tag endian (path p n) = Abort.
Proof.
  intros k depth avoid tag endian p n f files Hn Hs (F1 & _ & _) Hb. unfold load_dataset, path at 1. rewrite trim_slash by auto.
  remember (listing k (path p n)) as l eqn:El. clear El. revert F1. generalize (([], avoid) : globals). induction l as [|[x b] l IH]; intros g F1; [discriminate F1|]. cbn [set_files].
  destruct b; [apply IH, F1|]. cbn in F1. injection F1 as -> _. unfold set_one. change (p ++ [slash] ++ fst f) with (path p (fst f)). rewrite Hb. reflexivity.
Qed.
Print Assumptions C93_nested_refuted.
(* ... or they are other files, whose values are returned *)
Theorem C93_nested_other_refuted : forall k depth avoid tag endian p n files others rss, (2 <= depth)%nat -> n <> [] -> ~ In slash n ->
  has_files k (path p n) files -> map fst others = map fst files ->
  Forall (fun f => bytes_at k (path p (fst f)) = Some (snd f)) others -> Forall2 (fun f rs => made rs (snd f)) others rss ->
  Forall (readable avoid) (concat rss) -> consistent (wanted avoid (concat rss)) ->
  exists data, load_dataset k depth avoid tag endian (path p n) = Ok (data, avoid) /\
    forall name, get_item data name =
      if among avoid name then None else match values_of (concat rss) name with [] => None | vs => Some (matlab_of double_bits vs) end.
Proof.
  intros k depth avoid tag endian p n files others rss Hdep Hn Hs (F1 & _ & _) Ho Hb Hm Hr Hc. destruct depth as [|[|depth]]; try lia.
  unfold load_dataset. change (path p n) with (p ++ slash :: n) at 1. rewrite trim_slash by auto.
  destruct (files_ok k depth avoid p (listing k (path p n)) others rss [] [] tag endian) as (data & E & H); auto; [congruence|intros m; reflexivity|constructor|].
  exists data. split; [exact E|]. apply holds_wanted, H.
Qed.
Print Assumptions C93_nested_other_refuted.

Lemma get_filter (d : struct) name m :
  get_item (filter (fun e => if list_eq_dec Z.eq_dec (fst e) name then false else true) d) m = if list_eq_dec Z.eq_dec name m then None else get_item d m.
Proof.
  induction d as [|[n o] d IH]; cbn [filter fst get_item]; [destruct (list_eq_dec Z.eq_dec name m); reflexivity|].
  destruct (list_eq_dec Z.eq_dec n name) as [->|N]; cbn [get_item]; rewrite IH; [destruct (list_eq_dec Z.eq_dec name m); reflexivity|].
  destruct (list_eq_dec Z.eq_dec n m) as [->|]; [|reflexivity]. destruct (list_eq_dec Z.eq_dec name m); [congruence|reflexivity].
Qed.
Lemma among_app a b n : among (a ++ b) n = among a n || among b n.
Proof. apply existsb_app. Qed.
Lemma among_one x n : among [x] n = if list_eq_dec Z.eq_dec n x then true else false.
Proof. unfold among. cbn. destruct (list_eq_dec Z.eq_dec n x); reflexivity. Qed.

(* A name under which two files have vectors of different sizes: the field is
   removed, there is no error, and the name stays in SDF_AVOID *)
Theorem C93_mismatch_refuted : forall k depth avoid tag endian d directory f1 f2 rs x n l m l' post, (2 <= depth)%nat ->
  directory = d /\ ~ In slash d \/ directory = d ++ [slash] ->
  has_files k d [f1; f2] -> made rs (snd f1) -> made ((x, VR (mkST [m] l')) :: post) (snd f2) ->
  among avoid x = false -> values_of rs x = [VR (mkST [n] l)] -> 2 <= n -> 2 <= m -> n <> m ->
  Forall (readable avoid) rs -> consistent (wanted avoid rs) -> mat_record (x, VR (mkST [m] l')) ->
  Forall (readable (avoid ++ [x])) post -> consistent (wanted (avoid ++ [x]) (rs ++ post)) ->
  exists data, load_dataset k depth avoid tag endian directory = Ok (data, avoid ++ [x]) /\
    get_item data x = None /\
    forall name, get_item data name =
      if among (avoid ++ [x]) name then None else match values_of (rs ++ post) name with [] => None | vs => Some (matlab_of double_bits vs) end.
Proof.
  intros k depth avoid tag endian d directory f1 f2 rs x n l m l' post Hdep Hdir (F1 & F2 & F3) M1 M2 Hx Hv Hn Hm Hne R1 C1 Rx R2 C2.
  destruct depth as [|[|depth]]; try lia. unfold load_dataset.
  assert (T : trim directory = d /\ listing k directory = listing k d).
  { destruct Hdir as [[-> H]| ->]; [split; [apply trim_plain; auto|reflexivity]|]. split; [apply trim_slash; intros []|exact F2]. }
  destruct T as [-> ->]. clear F2 Hdir directory. set (y := VR (mkST [m] l')) in *.
  apply made_bytes in M1, M2. inversion F3 as [|? ? B1 F4]; subst. inversion F4 as [|? ? B2 _]; subst. clear F3 F4.
  assert (Sk : forall ls g t e, map fst (filter (fun e : list Z * bool => negb (snd e)) ls) = [] -> set_files k (S (S depth)) d ls g t e = Ok g).
  { induction ls as [|[a b] ls IH]; intros g t e H; [reflexivity|]. destruct b; [|discriminate H]. cbn [set_files]. apply IH, H. }
  assert (S1 : forall ls g t e a r, map fst (filter (fun e : list Z * bool => negb (snd e)) ls) = a :: r ->
    exists ls', map fst (filter (fun e : list Z * bool => negb (snd e)) ls') = r /\
      set_files k (S (S depth)) d ls g t e = ('(g, s) <- set_one k (S (S depth)) g t e (path d a) ;; set_files k (S (S depth)) d ls' g (tag_type s) (big_endian s))).
  { induction ls as [|[a b] ls IH]; intros g t e a' r H; [discriminate H|]. destruct b; cbn [set_files]; [apply IH, H|]. cbn in H. injection H as <- <-. exists ls. split; reflexivity. }
  destruct (S1 _ ([], avoid) tag endian _ _ F1) as (ls1 & G1 & E1). rewrite E1. unfold set_one at 1. rewrite B1, M1.
  destruct (file_ok depth avoid [] rs [] tag endian) as (d1 & s1 & H1 & Ef1); auto; [intros z; reflexivity|constructor|]. 
  match goal with |- context [set_loop ?a ?b ?c ?e] => replace (set_loop a b c e) with (Ok (((d1, avoid) : globals), s1)) by (symmetry; exact Ef1) end. cbn [bind]. cbn [app] in H1.
  destruct (S1 _ (d1, avoid) (tag_type s1) (big_endian s1) _ _ G1) as (ls2 & G2 & E2). rewrite E2. unfold set_one at 1. rewrite B2, M2.
  rewrite records_cons. change (concat (dump (snd (x, y)) (fst (x, y)))) with (concat (dump y x)).
  set (F := length (header ++ concat (dump y x) ++ records post)).
  assert (Hf : (length post < F)%nat) by (unfold F; rewrite !app_length; pose proof (records_length post); change (length header) with 64%nat; lia). clearbody F.
  pose proof (step_first depth avoid F d1 (x, y) (records post) (tag_type s1) (big_endian s1) Rx) as St. cbn [fst snd] in St. rewrite St. unfold step. cbn [fst snd]. rewrite Hx.
  (* the dimensions do not agree *)
  assert (Gx : get_item d1 x = Some (matlab_of double_bits [VR (mkST [n] l)])) by (rewrite (holds_wanted _ _ _ H1), Hx, Hv; reflexivity).
  assert (Dn : stack_dims (shape_of (VR (mkST [n] l))) 1 = [Z.to_nat n; 1%nat]).
  { cbn [shape_of map sdims]. unfold stack_dims. destruct (Z.to_nat n) as [|[|q]] eqn:Eq; try lia. reflexivity. }
  assert (Dm : stack_dims (shape_of y) 1 = [Z.to_nat m; 1%nat]).
  { unfold y. cbn [shape_of map sdims]. unfold stack_dims. destruct (Z.to_nat m) as [|[|q]] eqn:Eq; try lia. reflexivity. }
  assert (Ma : mat_store d1 x (read_dims y) (matlab_of double_bits [y]) = Abort).
  { unfold mat_store. rewrite Gx. rewrite !msize_of. cbn [length]. rewrite Dm. unfold y at 1. cbn [nth length read_dims sdims]. replace (1 <? Z.to_nat m)%nat with true by lia. cbn [Nat.ltb Nat.leb orb].
    unfold mat_cat. rewrite !msize_of. cbn [length Nat.eqb orb]. rewrite Dn, Dm. destruct (list_eq_dec Nat.eq_dec [Z.to_nat n; 1%nat] [0; 0]%nat) as [Q|_]; [discriminate Q|].
    destruct (list_eq_dec Nat.eq_dec [Z.to_nat m; 1%nat] [0; 0]%nat) as [Q|_]; [discriminate Q|]. unfold cat_dims. cbn [length Nat.max seq forallb Nat.eqb Nat.sub nth orb].
    replace (Z.to_nat n =? Z.to_nat m)%nat with false by lia. reflexivity. }
  unfold set_store. cbn [fst snd]. rewrite Ma. unfold rmfield. rewrite Gx. cbn [bind fst snd].
  set (d2 := filter _ d1).
  assert (H2 : holds d2 (wanted (avoid ++ [x]) rs)).
  { intros z. unfold d2. rewrite get_filter, (holds_wanted _ _ _ H1), values_wanted, among_app, among_one. destruct (list_eq_dec Z.eq_dec x z) as [->|Nx].
    - destruct (list_eq_dec Z.eq_dec z z); [|contradiction]. rewrite orb_true_r. reflexivity.
    - destruct (list_eq_dec Z.eq_dec z x); [congruence|]. rewrite orb_false_r. destruct (among avoid z); reflexivity. }
  destruct (set_loop_ok depth (avoid ++ [x]) post rs d2 (F - length post) [] H2) as (d3 & H3 & E3); auto.
  { apply Forall_forall. intros z Hz. apply filter_In in Hz as [Hz _]. rewrite Forall_forall in R1. apply R1, Hz. }
  rewrite app_nil_r in E3. replace (length post + (F - length post))%nat with F in E3 by lia. rewrite E3. replace (F - length post)%nat with (S (F - length post - 1)) by lia.
  destruct (set_loop_end (S depth) (F - length post - 1) (d3, avoid ++ [x]) 8 (Some false)) as (s3 & Es3). rewrite Es3. cbn [bind]. rewrite Sk by exact G2.
  exists d3. split; [reflexivity|]. pose proof (holds_wanted _ _ _ H3) as H4. split; [|exact H4]. rewrite H4, among_app, among_one. destruct (list_eq_dec Z.eq_dec x x); [|contradiction]. rewrite orb_true_r. reflexivity.
Qed.
Print Assumptions C93_mismatch_refuted.

(* A name in SDF_AVOID with a value without elements: the rest of its file is not read *)
Theorem C93_avoided_empty_refuted : forall k depth avoid tag endian d directory f rs x v rs', (2 <= depth)%nat ->
  directory = d /\ ~ In slash d \/ directory = d ++ [slash] ->
  has_files k d [f] -> made (rs ++ (x, v) :: rs') (snd f) -> Forall (readable avoid) rs -> consistent (wanted avoid rs) ->
  mat_record (x, v) -> among avoid x = true -> no_elements v ->
  exists data, load_dataset k depth avoid tag endian directory = Ok (data, avoid) /\
    forall name, get_item data name =
      if among avoid name then None else match values_of rs name with [] => None | vs => Some (matlab_of double_bits vs) end.
Proof.
  intros k depth avoid tag endian d directory f rs x v rs' Hdep Hdir (F1 & F2 & F3) M1 R1 C1 Rx Hx Hv.
  destruct depth as [|[|depth]]; try lia. unfold load_dataset.
  assert (T : trim directory = d /\ listing k directory = listing k d).
  { destruct Hdir as [[-> H]| ->]; [split; [apply trim_plain; auto|reflexivity]|]. split; [apply trim_slash; intros []|exact F2]. }
  destruct T as [-> ->]. apply made_bytes in M1. inversion F3 as [|? ? B1 _]; subst.
  assert (Sk : forall ls g t e, map fst (filter (fun e : list Z * bool => negb (snd e)) ls) = [] -> set_files k (S (S depth)) d ls g t e = Ok g).
  { induction ls as [|[a b] ls IH]; intros g t e H; [reflexivity|]. destruct b; [|discriminate H]. cbn [set_files]. apply IH, H. }
  assert (Rec : records (rs ++ (x, v) :: rs') = records rs ++ concat (dump v x) ++ records rs').
  { unfold records. rewrite flat_map_app, concat_app. cbn [flat_map fst snd]. rewrite concat_app. reflexivity. }
  assert (Core : exists data s, holds data (wanted avoid rs) /\ set_loop (S (S depth)) (S (length (header ++ records rs ++ concat (dump v x) ++ records rs'))) ([], avoid)
      (mkM (header ++ records rs ++ concat (dump v x) ++ records rs') tag endian false) = Ok ((data, avoid), s)).
  { set (tail := concat (dump v x) ++ records rs').
    assert (Stop : forall fuel data, set_loop (S (S depth)) (S fuel) (data, avoid) (M tail) = Ok ((data, avoid), M (records rs'))).
    { intros fuel data. pose proof (step_ok depth avoid fuel data (x, v) (records rs') Rx) as St. cbn [fst snd] in St. unfold tail. rewrite St. unfold step. cbn [fst snd]. rewrite Hx.
      destruct Rx as (_ & _ & g4 & g5). rewrite no_elements_empty by auto. reflexivity. }
    destruct rs as [|r rs].
    - exists [], (M (records rs')). split; [intros z; reflexivity|]. change (records [] ++ tail) with tail. rewrite <- (Stop (length (header ++ tail)) []). unfold tail.
      pose proof (step_first depth avoid (length (header ++ tail)) [] (x, v) (records rs') tag endian Rx) as Sf. pose proof (step_ok depth avoid (length (header ++ tail)) [] (x, v) (records rs') Rx) as So. cbn [fst snd] in Sf, So.
      unfold tail in *. exact (eq_trans Sf (eq_sym So)).
    - set (F := length (header ++ records (r :: rs) ++ tail)). assert (Hf : (length (r :: rs) < F)%nat) by (unfold F; rewrite !app_length; pose proof (records_length (r :: rs)); change (length header) with 64%nat; lia). clearbody F.
      destruct (set_loop_ok depth avoid (r :: rs) [] [] (F + 1 - length (r :: rs)) tail) as (d' & Hd' & E'); auto; [intros z; reflexivity|constructor|].
      cbn [app] in Hd'. exists d', (M (records rs')). split; [exact Hd'|]. rewrite records_cons, <- app_assoc in *. inversion R1 as [|? ? [Gr _] _]; subst. rewrite step_first by auto. rewrite <- step_ok by auto.
      replace (S F) with (length (r :: rs) + (F + 1 - length (r :: rs)))%nat by lia. rewrite E'. replace (F + 1 - length (r :: rs))%nat with (S (F - length (r :: rs))) by lia. apply Stop. }
  destruct Core as (data & s & Hd & Ec). exists data. split; [|apply holds_wanted, Hd].
  revert F1. generalize (listing k d). induction l as [|[a b] ls IH]; intros H; [discriminate H|]. destruct b; cbn [set_files]; [apply IH, H|]. cbn in H. injection H as -> Hl.
  unfold set_one. change (d ++ [slash] ++ fst f) with (path d (fst f)). rewrite B1, M1, Rec.
  match goal with |- context [set_loop ?a ?b ?c ?e] => replace (set_loop a b c e) with (Ok (((data, avoid) : globals), s)) by (symmetry; exact Ec) end. cbn [bind]. apply Sk, Hl.
Qed.
Print Assumptions C93_avoided_empty_refuted.

(* ---- examples ---- *)
(* a directory "D" with these files; nothing else *)
Definition disk_of (l : list (list Z * list Z)) : disk :=
  mkDisk (fun d => if list_eq_dec Z.eq_dec d [68] then (([46], true) :: ([46; 46], true) :: map (fun f => (fst f, false)) l)
                   else if list_eq_dec Z.eq_dec d [68; slash] then (([46], true) :: ([46; 46], true) :: map (fun f => (fst f, false)) l) else [])
         (fun p => get_item (map (fun f => (path [68] (fst f), snd f)) l) p).
Lemma disk_has l : NoDup (map fst l) -> has_files (disk_of l) [68] l.
Proof.
  intros N. split; [|split; [reflexivity|]].
  - cbn. induction l as [|f l IH]; [reflexivity|]. cbn. f_equal. apply IH. inversion N; auto.
  - cbn [disk_of bytes_at]. induction l as [|f l IH]; [constructor|]. inversion N as [|? ? Nf N']; subst. constructor.
    + cbn [map get_item]. destruct (list_eq_dec Z.eq_dec (path [68] (fst f)) (path [68] (fst f))); [reflexivity|contradiction].
    + apply Forall_forall. intros g Hg. pose proof (IH N') as H. rewrite Forall_forall in H. cbn [map get_item]. destruct (list_eq_dec Z.eq_dec (path [68] (fst f)) (path [68] (fst g))) as [E|_]; [|apply H, Hg].
      exfalso. injection E as E. apply Nf. rewrite E. apply in_map, Hg.
Qed.
(* the file of job j, "0", "1", ..., in which x is j *)
Definition job_name (j : Z) : list Z := if j <? 10 then [48 + j] else [48 + j / 10; 48 + j mod 10].
Definition job_file (j : Z) : list Z * list Z := (job_name j, header ++ records [([120], VDouble j)]).

(* The listing is in the order of the names, so that job 10 comes before job 2:
   the values are not in the order of the jobs. *)
Theorem C93_order_refuted : exists jobs k data, Permutation jobs [0; 1; 2; 3; 4; 5; 6; 7; 8; 9; 10] /\
  Forall (fun j => made [([120], VDouble j)] (snd (job_file j))) jobs /\
  has_files k [68] (map job_file jobs) /\ in_order (map job_name jobs) = true /\
  load_dataset k 2 [] 4 None [68] = Ok (data, []) /\
  get_item data [120] = Some (MReal (mkT [11; 1]%nat [0; 1; 10; 2; 3; 4; 5; 6; 7; 8; 9])).
Proof.
  exists [0; 1; 10; 2; 3; 4; 5; 6; 7; 8; 9], (disk_of (map job_file [0; 1; 10; 2; 3; 4; 5; 6; 7; 8; 9])), [([120], MReal (mkT [11; 1]%nat [0; 1; 10; 2; 3; 4; 5; 6; 7; 8; 9]))].
  split; [|split; [|split; [|split; [reflexivity|split; [vm_compute; reflexivity|reflexivity]]]]].
  - apply perm_skip, perm_skip. change [10; 2; 3; 4; 5; 6; 7; 8; 9] with ([10] ++ [2; 3; 4; 5; 6; 7; 8; 9]). apply (Permutation_app_comm [10]).
  - apply Forall_forall. intros j _. destruct (made_exists [([120], VDouble j)]) as (file & H). pose proof (made_bytes _ _ H) as E. cbn [job_file snd]. rewrite <- E. exact H.
  - apply disk_has. cbn. repeat (constructor; [cbn; intuition discriminate|]). constructor.
Qed.
Print Assumptions C93_order_refuted.

(* After a data set in which x does not match, x is missing from another one
   that is read afterwards, although there is nothing wrong with it *)
Definition bad_set : disk := disk_of [([48], header ++ records [([120], VR (mkST [2] [1; 2])); ([121], VDouble 7)]); ([49], header ++ records [([120], VR (mkST [3] [1; 2; 3])); ([121], VDouble 8)])].
Definition good_set : disk := disk_of [([48], header ++ records [([120], VDouble 5); ([121], VDouble 6)])].
Theorem C93_avoid_refuted : exists data avoid,
  load_dataset good_set 2 [] 4 None [68] = Ok ([([120], MReal (mkT [1; 1]%nat [5])); ([121], MReal (mkT [1; 1]%nat [6]))], []) /\
  load_dataset bad_set 2 [] 4 None [68] = Ok (data, avoid) /\
  load_dataset good_set 2 avoid 4 None [68] = Ok ([([121], MReal (mkT [1; 1]%nat [6]))], avoid).
Proof. exists [([121], MReal (mkT [2; 1]%nat [7; 8]))], [[120]]. split; [vm_compute; reflexivity|]. split; vm_compute; reflexivity. Qed.
Print Assumptions C93_avoid_refuted.

(* The hypotheses are met: two jobs, "D" and "D/" *)
Definition ex_sets : list (list (list Z * value)) := [[([65], ex_A); ([110], VDouble 9)]; [([65], ex_A)]].
Example C93_nonvacuous : exists files, has_files (disk_of files) [68] files /\ Forall2 (fun f rs => made rs (snd f)) files ex_sets /\
  Forall (readable []) (concat ex_sets) /\ consistent (wanted [] (concat ex_sets)) /\
  load_dataset (disk_of files) 2 [] 4 None [68; slash] = Ok ([([65], MReal (mkT [2; 2; 2]%nat [1; 2; 3; 4; 1; 2; 3; 4])); ([110], MReal (mkT [1; 1]%nat [9]))], []).
Proof.
  exists [([48], header ++ records (nth 0 ex_sets [])); ([49], header ++ records (nth 1 ex_sets []))].
  assert (Md : forall rs, made rs (header ++ records rs)) by (intros rs; destruct (made_exists rs) as (f & H); rewrite <- (made_bytes _ _ H); exact H).
  destruct C87_nonvacuous as (R & _ & _). rewrite Forall_forall in R.
  split; [apply disk_has; repeat (constructor; [cbn; intuition discriminate|]); constructor|]. split; [repeat constructor; apply Md|]. split; [|split; [|vm_compute; reflexivity]].
  - apply Forall_forall. intros r Hr. split; [|discriminate]. apply R. cbn in *. tauto.
  - intros name v vs. unfold values_of, ex_sets. cbn [concat app wanted filter among existsb negb fst].
    repeat match goal with |- context [list_eq_dec Z.eq_dec ?a name] => destruct (list_eq_dec Z.eq_dec a name) as [<-|] end;
      cbn [filter fst map snd]; try (intros H; discriminate H);
      repeat match goal with |- context [list_eq_dec Z.eq_dec ?a ?b] => destruct (list_eq_dec Z.eq_dec a b) as [EE|]; [try discriminate EE|try contradiction] end;
      cbn [filter fst map snd]; intros H; try discriminate H; injection H as <- <-; split; repeat constructor; try discriminate; intros C; contradiction.
Qed.
Example C93_nested_meets : let k := mkDisk (fun d => if list_eq_dec Z.eq_dec d (path [65] [68]) then [([48], false)] else if list_eq_dec Z.eq_dec d (path [65] [68] ++ [slash]) then [([48], false)] else [])
    (fun p => if list_eq_dec Z.eq_dec p (path (path [65] [68]) [48]) then Some header else None) in
  has_files k (path [65] [68]) [([48], header)] /\ bytes_at k (path [65] [48]) = None /\
  load_dataset k 2 [] 4 None (path [65] [68] ++ [slash]) = Ok ([], []).
Proof. split; [split; [reflexivity|split; [reflexivity|repeat constructor]]|]. split; vm_compute; reflexivity. Qed.
