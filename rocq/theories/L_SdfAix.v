(* Lemmas for P_SdfAix.v *)
From Verif Require Import Base Spec S_Reduce S_Sdf M_Tensor M_Sdf L_Sdf M_SdfAix.

(* ---- lists ---- *)
Lemma upd_split {A} (a : list A) x b v : upd (a ++ x :: b) (length a) v = a ++ v :: b.
Proof. induction a as [|y a IH]; cbn [app length upd]; [reflexivity|]. f_equal. exact IH. Qed.
Lemma wr_split {A} (a : list A) x b v : wr (a ++ x :: b) (length a) v = Ok (a ++ v :: b).
Proof. unfold wr. rewrite app_length. cbn [length]. destruct (Nat.ltb_spec (length a) (length a + S (length b))); [|lia]. rewrite upd_split. reflexivity. Qed.
Lemma rd_split {A} (a : list A) x b : rd (a ++ x :: b) (length a) = Ok x.
Proof. unfold rd. rewrite nth_error_app2, Nat.sub_diag by lia. reflexivity. Qed.

Lemma firstn_exact {A} n (a b : list A) : length a = n -> firstn n (a ++ b) = a.
Proof. intros <-. rewrite firstn_app, Nat.sub_diag, firstn_all, firstn_O. apply app_nil_r. Qed.
Lemma skipn_exact {A} n (a b : list A) : length a = n -> skipn n (a ++ b) = b.
Proof. intros <-. rewrite skipn_app, Nat.sub_diag, skipn_all. reflexivity. Qed.

(* ---- writing ---- *)
Lemma put_number_ok e : forall pm mem' done old tail,
  length old = length e ->
  put_number (length e) (length done) (length pm) (pm ++ e ++ mem') (done ++ old ++ tail) =
  Ok (done ++ rev e ++ tail, length pm + length e).
Proof.
  induction e as [|c e IH]; intros pm mem' done old tail L; cbn [length put_number].
  - destruct old; [|discriminate]. rewrite Nat.add_0_r. reflexivity.
  - cbn [app]. rewrite rd_split. cbn [bind].
    assert (N : old <> []) by (destruct old; [discriminate|easy]). destruct (exists_last N) as (old' & x & ->). rewrite app_length in L. cbn [length] in L.
    replace (length done + length e) with (length (done ++ old')) by (rewrite app_length; lia).
    replace (done ++ (old' ++ [x]) ++ tail) with ((done ++ old') ++ x :: tail) by (rewrite <- !app_assoc; reflexivity).
    rewrite wr_split. cbn [bind].
    specialize (IH (pm ++ [c]) mem' done old' (c :: tail) ltac:(lia)). rewrite app_length in IH. cbn [length] in IH.
    replace ((done ++ old') ++ c :: tail) with (done ++ old' ++ c :: tail) by (rewrite <- app_assoc; reflexivity).
    replace (pm ++ c :: e ++ mem') with ((pm ++ [c]) ++ e ++ mem') by (rewrite <- app_assoc; reflexivity).
    replace (S (length pm)) with (length pm + 1) by lia. rewrite IH. cbn [rev]. rewrite <- app_assoc. cbn [app]. f_equal. f_equal. lia.
Qed.

Section Size.
Context (size : nat) (Hs : 0 < size).
Definition sized (es : list (list Z)) : Prop := Forall (fun e => length e = size) es.
Lemma sized_length es : sized es -> length (concat es) = length es * size.
Proof. induction 1 as [|e es L F IH]; cbn [concat length]; [reflexivity|]. rewrite app_length, IH, L. lia. Qed.
Lemma sized_rev es : sized es -> sized (map (@rev Z) es).
Proof. induction 1 as [|e es L F IH]; constructor; [rewrite rev_length; auto|auto]. Qed.

Lemma put_numbers_ok es : forall fuel pm mem' done old tail n,
  sized es -> length old = length es * size -> length es < fuel -> length es <= n ->
  put_numbers fuel size (length done) (length done + length es * size) (length pm) n (pm ++ concat es ++ mem') (done ++ old ++ tail) =
  Ok (done ++ concat (map (@rev Z) es) ++ tail, length pm + length es * size, n - length es).
Proof.
  induction es as [|e es IH]; intros fuel pm mem' done old tail n F L Lf Ln; (destruct fuel as [|fuel]; [cbn [length] in Lf; lia|]); cbn [put_numbers length] in *.
  - destruct (Nat.ltb_spec (length done) (length done + 0 * size)); [lia|]. destruct old; [|cbn [length] in L; lia]. cbn [map concat app]. rewrite Nat.add_0_r, Nat.sub_0_r. reflexivity.
  - inversion F as [|? ? Le F']; subst. destruct (Nat.ltb_spec (length done) (length done + S (length es) * size)); [|nia].
    assert (E : old = firstn (size) old ++ skipn (size) old) by (symmetry; apply firstn_skipn). remember (firstn (size) old) as o1 eqn:Q1. remember (skipn (size) old) as o2 eqn:Q2.
    assert (L1 : length o1 = size) by (subst o1; rewrite firstn_length_le; nia). assert (L2 : length o2 = length es * size) by (subst o2; rewrite skipn_length; nia). clear Q1 Q2. subst old.
    cbn [concat map]. rewrite <- !app_assoc.
    pose proof (put_number_ok e pm (concat es ++ mem') done o1 (o2 ++ tail)) as P. rewrite Le in P. rewrite (P L1). clear P. cbn [bind].
    specialize (IH fuel (pm ++ e) mem' (done ++ rev e) o2 tail (n - 1) F' L2 ltac:(lia) ltac:(lia)). rewrite !app_length, ?rev_length, Le in IH. rewrite <- !app_assoc in IH.
    replace (length done + size + length es * size) with (length done + S (length es) * size) in IH by lia. rewrite IH.
    f_equal. f_equal; [f_equal; lia|lia].
Qed.

Context (B k : nat) (HB : B = k * size) (Hk : 0 < k).
Lemma write_loop_ok : forall fuel es pm buffer file,
  sized es -> length buffer = B -> length es < fuel ->
  write_loop B fuel size (length pm) (length es) (pm ++ concat es) buffer file = Ok (file ++ concat (map (@rev Z) es)).
Proof.
  induction fuel as [|fuel IH]; intros es pm buffer file F Lb Lf; [lia|]. cbn [write_loop]. cbv zeta.
  replace (B / size) with k by (rewrite HB; symmetry; apply Nat.div_mul; lia).
  set (m := Nat.min (length es) k). assert (Lm : m <= length es /\ m <= k) by (unfold m; lia).
  assert (E : es = firstn m es ++ skipn m es) by (symmetry; apply firstn_skipn).
  assert (F1 : sized (firstn m es)) by (unfold sized in *; rewrite E in F; apply Forall_app in F; apply F).
  assert (F2 : sized (skipn m es)) by (unfold sized in *; rewrite E in F; apply Forall_app in F; apply F).
  assert (L1 : length (firstn m es) = m) by (rewrite firstn_length_le; lia).
  assert (L2 : length (skipn m es) = length es - m) by apply skipn_length.
  assert (C : concat es = concat (firstn m es) ++ concat (skipn m es)) by (rewrite <- concat_app, <- E; reflexivity).
  assert (Eb : buffer = firstn (m * size) buffer ++ skipn (m * size) buffer) by (symmetry; apply firstn_skipn).
  assert (Lo : length (firstn (m * size) buffer) = m * size) by (rewrite firstn_length_le; [reflexivity|rewrite Lb, HB; nia]).
  pose proof (put_numbers_ok (firstn m es) (S (m * size)) pm (concat (skipn m es)) [] (firstn (m * size) buffer) (skipn (m * size) buffer) (length es)) as P.
  rewrite L1 in P. cbn [length app Nat.add] in P. rewrite <- Eb, <- C in P. specialize (P F1 Lo ltac:(nia) ltac:(lia)). rewrite P. cbn [bind].
  assert (Lr : length (concat (map (@rev Z) (firstn m es))) = m * size) by (rewrite sized_length by (apply sized_rev; auto); rewrite map_length, L1; reflexivity).
  rewrite firstn_app, Lr, Nat.sub_diag. rewrite firstn_all2 by lia. cbn [firstn]. rewrite app_nil_r.
  destruct (Nat.eqb_spec (length es - m) 0) as [Y|Y].
  - f_equal. f_equal. f_equal. f_equal. apply firstn_all2. lia.
  - assert (Mp : m = k) by (unfold m in *; lia).
    specialize (IH (skipn m es) (pm ++ concat (firstn m es)) (concat (map (@rev Z) (firstn m es)) ++ skipn (m * size) buffer) (file ++ concat (map (@rev Z) (firstn m es))) F2).
    rewrite !app_length, Lr, skipn_length, L2, sized_length, L1 in IH by auto. rewrite <- !app_assoc, <- C in IH. rewrite IH; [|rewrite Lb; nia|nia].
    f_equal. f_equal. rewrite <- concat_app, <- map_app, <- E. reflexivity.
Qed.

(* ---- reading ---- *)
Lemma get_number_ok e : forall pm old mem' done tail,
  length old = length e ->
  get_number (length e) (length done) (length pm) (pm ++ old ++ mem') (done ++ e ++ tail) =
  Ok (pm ++ rev e ++ mem', length pm + length e).
Proof.
  clear. induction e as [|c e IH] using rev_ind; intros pm old mem' done tail L.
  - destruct old; [|discriminate]. cbn [length get_number]. rewrite Nat.add_0_r. reflexivity.
  - rewrite app_length in *. cbn [length] in *. replace (length e + 1) with (S (length e)) in * by lia. cbn [get_number]. destruct old as [|o old]; [discriminate|]. cbn [length] in L.
    replace (length done + length e) with (length (done ++ e)) by (rewrite app_length; lia).
    replace (done ++ (e ++ [c]) ++ tail) with ((done ++ e) ++ c :: tail) by (rewrite <- !app_assoc; reflexivity). rewrite rd_split. cbn [bind app]. rewrite wr_split. cbn [bind].
    specialize (IH (pm ++ [c]) old mem' done (c :: tail) ltac:(lia)). rewrite app_length in IH. cbn [length] in IH.
    replace ((done ++ e) ++ c :: tail) with (done ++ e ++ c :: tail) by (rewrite <- app_assoc; reflexivity).
    replace (pm ++ c :: old ++ mem') with ((pm ++ [c]) ++ old ++ mem') by (rewrite <- app_assoc; reflexivity).
    replace (S (length pm)) with (length pm + 1) by lia. rewrite IH. rewrite rev_app_distr. cbn [rev app]. rewrite <- app_assoc. cbn [app]. f_equal. f_equal. lia.
Qed.
Lemma get_numbers_ok es : forall fuel pm old mem' done tail n,
  sized es -> length old = length es * size -> length es < fuel -> length es <= n ->
  get_numbers fuel size (length done) (length done + length es * size) (length pm) n (pm ++ old ++ mem') (done ++ concat es ++ tail) =
  Ok (pm ++ concat (map (@rev Z) es) ++ mem', length pm + length es * size, n - length es).
Proof.
  induction es as [|e es IH]; intros fuel pm old mem' done tail n F L Lf Ln; (destruct fuel as [|fuel]; [cbn [length] in Lf; lia|]); cbn [get_numbers length] in *.
  - destruct (Nat.ltb_spec (length done) (length done + 0 * size)); [lia|]. destruct old; [|cbn [length] in L; lia]. cbn [map concat app]. rewrite Nat.add_0_r, Nat.sub_0_r. reflexivity.
  - inversion F as [|? ? Le F']; subst. destruct (Nat.ltb_spec (length done) (length done + S (length es) * size)); [|nia].
    assert (E : old = firstn (size) old ++ skipn (size) old) by (symmetry; apply firstn_skipn). remember (firstn (size) old) as o1 eqn:Q1. remember (skipn (size) old) as o2 eqn:Q2.
    assert (L1 : length o1 = size) by (subst o1; rewrite firstn_length_le; nia). assert (L2 : length o2 = length es * size) by (subst o2; rewrite skipn_length; nia). clear Q1 Q2. subst old.
    cbn [concat map]. rewrite <- !app_assoc.
    pose proof (get_number_ok e pm o1 (o2 ++ mem') done (concat es ++ tail)) as P. rewrite Le in P. rewrite (P L1). clear P. cbn [bind].
    specialize (IH fuel (pm ++ rev e) o2 mem' (done ++ e) tail (n - 1) F' L2 ltac:(lia) ltac:(lia)). rewrite !app_length, ?rev_length, Le in IH. rewrite <- !app_assoc in IH.
    replace (length done + size + length es * size) with (length done + S (length es) * size) in IH by lia. rewrite IH.
    f_equal. f_equal; [f_equal; lia|lia].
Qed.
Lemma read_loop_ok : forall fuel es pm old buffer tail c,
  sized es -> length old = length es * size -> length buffer = B -> length es < fuel ->
  exists c', read_loop B fuel size (length pm) (length es) (pm ++ old) buffer (mkRS (concat es ++ tail) false c) =
    Ok (pm ++ concat (map (@rev Z) es), mkRS tail false c').
Proof.
  induction fuel as [|fuel IH]; intros es pm old buffer tail c F Lo Lb Lf; [lia|]. cbn [read_loop]. cbv zeta.
  set (m := Nat.min (length es) k). assert (Lm : m <= length es /\ m <= k) by (unfold m; lia).
  replace (Nat.min (length es * size) B) with (m * size) by (unfold m; rewrite HB; rewrite Nat.mul_min_distr_r; reflexivity).
  assert (E : es = firstn m es ++ skipn m es) by (symmetry; apply firstn_skipn).
  assert (F1 : sized (firstn m es)) by (unfold sized in *; rewrite E in F; apply Forall_app in F; apply F).
  assert (F2 : sized (skipn m es)) by (unfold sized in *; rewrite E in F; apply Forall_app in F; apply F).
  assert (L1 : length (firstn m es) = m) by (rewrite firstn_length_le; lia).
  assert (L2 : length (skipn m es) = length es - m) by apply skipn_length.
  assert (C : concat es = concat (firstn m es) ++ concat (skipn m es)) by (rewrite <- concat_app, <- E; reflexivity).
  assert (Lc : length (concat (firstn m es)) = m * size) by (rewrite sized_length, L1 by auto; reflexivity).
  unfold read_into. cbn [failed rest reads]. rewrite C, <- app_assoc.
  destruct (Nat.leb_spec (m * size) (length (concat (firstn m es) ++ concat (skipn m es) ++ tail))) as [_|Q]; [|rewrite !app_length in Q; lia].
  rewrite (firstn_exact _ _ _ Lc), (skipn_exact _ _ _ Lc).
  assert (Eo : old = firstn (m * size) old ++ skipn (m * size) old) by (symmetry; apply firstn_skipn).
  pose proof (get_numbers_ok (firstn m es) (S (m * size)) pm (firstn (m * size) old) (skipn (m * size) old) [] (skipn (m * size) buffer) (length es)) as P.
  rewrite L1 in P. cbn [length app Nat.add] in P. rewrite <- Eo in P. rewrite P by (auto; try lia; try nia; rewrite firstn_length_le; nia). cbn [bind].
  destruct (Nat.eqb_spec (length es - m) 0) as [Y|Y].
  - exists (S c). rewrite (skipn_all2 es) by lia. cbn [concat app]. f_equal. f_equal. f_equal. rewrite skipn_all2 by nia. rewrite app_nil_r. f_equal. f_equal. apply firstn_all2. lia.
  - specialize (IH (skipn m es) (pm ++ concat (map (@rev Z) (firstn m es))) (skipn (m * size) old) (concat (firstn m es) ++ skipn (m * size) buffer) tail (S c) F2).
    rewrite !app_length, (sized_length _ (sized_rev _ F1)), map_length, L1, Lc, L2, (skipn_length _ old), (skipn_length _ buffer) in IH. rewrite <- !app_assoc in IH.
    destruct IH as (c' & IH); [nia|rewrite Lb, HB; nia|nia|]. exists c'. rewrite IH. f_equal. f_equal. f_equal. rewrite <- concat_app, <- map_app, <- E. reflexivity.
Qed.
End Size.

Lemma alloc_length (junk : nat -> Z) n : length (alloc junk n) = n.
Proof. unfold alloc. rewrite map_length, seq_length. reflexivity. Qed.
Lemma be_length k w : length (be k w) = k.
Proof. unfold be. rewrite rev_length. apply le_length. Qed.
Lemma words_be_ok ws : Forall is_word ws -> words_be (length ws) (flat_map (be 8) ws) = ws.
Proof.
  induction 1 as [|w ws H F IH]; [reflexivity|]. cbn [length words_be flat_map].
  rewrite firstn_app, be_length, Nat.sub_diag, firstn_all2 by (rewrite be_length; lia). rewrite firstn_O, app_nil_r.
  rewrite skipn_app, be_length, Nat.sub_diag, skipn_all2 by (rewrite be_length; lia). cbn [app]. change (skipn 0 (flat_map (be 8) ws)) with (flat_map (be 8) ws).
  unfold be at 1. rewrite rev_involutive, of_le_word by auto. f_equal. exact IH.
Qed.

(* ---- values ---- *)
Lemma buffer_8 : buffer_size = (8 * 16) * 8. Proof. reflexivity. Qed.
Local Opaque buffer_size.
Lemma write_aix junk ws : write_words_aix junk ws = Ok (write_words ws).
Proof.
  unfold write_words_aix, write_swapped. cbn [Nat.eqb].
  assert (F : sized 8 (map (be 8) ws)) by (unfold sized; apply Forall_forall; intros e H; apply in_map_iff in H as (w & <- & _); apply be_length).
  pose proof (write_loop_ok 8 ltac:(lia) buffer_size (8 * 16) buffer_8 ltac:(lia) (S (length ws)) (map (be 8) ws) [] (alloc junk buffer_size) [] F (alloc_length _ _)) as E.
  rewrite map_length in E. cbn [app] in E. rewrite flat_map_concat_map. change (length (@nil Z)) with 0 in E. rewrite E by lia. f_equal. unfold write_words. rewrite flat_map_concat_map, map_map. reflexivity.
Qed.
Lemma raw_ok junk ws : raw_aix junk ws = Ok [write_words ws].
Proof. unfold raw_aix. rewrite write_aix. reflexivity. Qed.
Lemma dump_R_aix_ok junk t name : dump_R_aix junk t name = Ok (dump_R t name).
Proof. unfold dump_R_aix, write_tag_aix, dump_vector_aix, dump_R, write_tag, dump_vector. rewrite !raw_ok. reflexivity. Qed.
Lemma dump_C_aix_ok junk t name : dump_C_aix junk t name = Ok (dump_C t name).
Proof. unfold dump_C_aix, write_tag_aix, dump_vector_aix, dump_C, write_tag, dump_vector. rewrite !raw_ok. reflexivity. Qed.
Lemma dump_many_ok {T} (d1 : T -> outcome (list chunk)) d2 l : (forall t, d1 t = Ok (d2 t)) -> dump_many d1 l = Ok (flat_map d2 l).
Proof. intros H. induction l as [|t l IH]; [reflexivity|]. cbn [dump_many flat_map]. unfold then_write. rewrite H, IH. reflexivity. Qed.
Lemma dump_aix_ok junk v name : dump_aix junk v name = Ok (dump v name).
Proof.
  destruct v as [v|v|w|re im|t|t|l|l]; cbn [dump_aix dump].
  - exact (dump_R_aix_ok junk (mkST [1%Z] [double_bits v]) name).
  - exact (dump_R_aix_ok junk (mkST [1%Z] [double_bits v]) name).
  - exact (dump_R_aix_ok junk (mkST [1%Z] [w]) name).
  - exact (dump_C_aix_ok junk (mkST [1%Z] [(re, im)]) name).
  - exact (dump_R_aix_ok junk t name).
  - exact (dump_C_aix_ok junk t name).
  - unfold write_tag_aix, write_tag. rewrite !raw_ok. rewrite (dump_many_ok _ (fun t => dump_R t []) l (fun t => dump_R_aix_ok junk t [])). reflexivity.
  - unfold write_tag_aix, write_tag. rewrite !raw_ok. rewrite (dump_many_ok _ (fun t => dump_C t []) l (fun t => dump_C_aix_ok junk t [])). reflexivity.
Qed.
Lemma file_aix_ok junk rs : file_aix junk rs = Ok (concat header_aix ++ records rs).
Proof.
  unfold file_aix. rewrite (dump_many_ok _ (fun r => dump (snd r) (fst r))) by (intros; apply dump_aix_ok). cbn [bind]. rewrite concat_app. reflexivity.
Qed.

(* ---- reading the same on both machines ---- *)
Fixpoint split8 (n : nat) (bs : list Z) : list (list Z) := match n with O => [] | S n => firstn 8 bs :: split8 n (skipn 8 bs) end.
Lemma split8_length n : forall bs, length (split8 n bs) = n.
Proof. induction n as [|n IH]; intros bs; cbn [split8 length]; auto. Qed.
Lemma split8_sized n : forall bs, 8 * n <= length bs -> sized 8 (split8 n bs).
Proof. induction n as [|n IH]; intros bs L; cbn [split8]; constructor; [apply firstn_length_le; lia|apply IH; rewrite skipn_length; lia]. Qed.
Lemma firstn_sum {A} a b (l : list A) : firstn (a + b) l = firstn a l ++ firstn b (skipn a l).
Proof. revert l. induction a as [|a IH]; intros l; [reflexivity|]. destruct l as [|x l]; cbn [Nat.add firstn skipn app]; [rewrite firstn_nil; reflexivity|]. f_equal. apply IH. Qed.
Lemma split8_concat n : forall bs, concat (split8 n bs) = firstn (8 * n) bs.
Proof.
  induction n as [|n IH]; intros bs; [rewrite Nat.mul_0_r; reflexivity|]. replace (8 * S n) with (8 + 8 * n) by lia. rewrite firstn_sum. cbn [split8 concat]. rewrite IH. reflexivity.
Qed.
Lemma words_split n : forall bs, words n bs = map of_le (split8 n bs).
Proof. induction n as [|n IH]; intros bs; cbn [words split8 map]; [reflexivity|]. rewrite IH. reflexivity. Qed.
Lemma words_be_split es : sized 8 es -> words_be (length es) (concat (map (@rev Z) es)) = map of_le es.
Proof.
  induction 1 as [|e es L F IH]; [reflexivity|]. cbn [length words_be map concat].
  rewrite firstn_exact, skipn_exact by (rewrite rev_length; auto). rewrite rev_involutive. f_equal. exact IH.
Qed.

Definition same (a b : rstate) : Prop := rest a = rest b /\ failed a = failed b.
Section Sim.
Context (junk0 : nat -> nat -> Z) (junk memory : nat -> Z) (chars : nat -> nat -> Z).
Lemma raw_failed n st bs st1 : read_raw junk0 n st = (bs, st1) -> failed st1 = false -> failed st = false /\ n <= length (rest st) /\ bs = firstn n (rest st) /\ rest st1 = skipn n (rest st).
Proof.
  unfold read_raw. destruct (failed st); intros E; [inversion E; subst; discriminate|]. destruct (Nat.leb_spec n (length (rest st))); inversion E; subst; [|discriminate]. auto.
Qed.
Lemma sim_words n st ws st1 st' : read_words junk0 n st = (ws, st1) -> failed st1 = false -> same st st' ->
  failed st = false /\ exists st1', read_words_aix junk memory n st' = Ok (ws, st1') /\ same st1 st1'.
Proof.
  unfold read_words. destruct (read_raw junk0 (8 * n) st) as [bs s1] eqn:E. intros Q; inversion Q; subst ws st1; clear Q. intros F [Sr Sf].
  apply raw_failed in E as (E1 & E2 & -> & E4); [|auto]. split; [auto|]. unfold read_words_aix, read_swapped.
  destruct st' as [r f c]. cbn [rest failed] in *. subst f r. rewrite E1 in *.
  pose proof (split8_sized n (rest st) E2) as Z8. pose proof (split8_concat n (rest st)) as Cc.
  assert (Er : rest st = concat (split8 n (rest st)) ++ skipn (8 * n) (rest st)) by (rewrite Cc; symmetry; apply firstn_skipn).
  destruct (read_loop_ok 8 ltac:(lia) buffer_size (8 * 16) buffer_8 ltac:(lia) (S n) (split8 n (rest st)) [] (alloc memory (8 * n)) (alloc junk buffer_size) (skipn (8 * n) (rest st)) c Z8) as (c' & R);
    [rewrite alloc_length, split8_length; lia|apply alloc_length|rewrite split8_length; lia|].
  rewrite <- Er, split8_length in R. cbn [app] in R. change (length (@nil Z)) with 0 in R. rewrite R. cbn [bind]. eexists. split.
  - f_equal. f_equal. rewrite words_split. pose proof (words_be_split _ Z8) as W. rewrite split8_length in W. rewrite W. f_equal.
    assert (K : forall k bs, split8 k (firstn (8 * k) bs) = split8 k bs).
    { clear. induction k as [|k IH]; intros bs; [reflexivity|]. replace (8 * S k) with (8 + 8 * k) by lia. rewrite firstn_sum. cbn [split8]. f_equal.
      - rewrite firstn_app, firstn_firstn. destruct (Nat.le_gt_cases 8 (length bs)).
        + rewrite firstn_length_le by auto. rewrite Nat.sub_diag, firstn_O, app_nil_r. f_equal.
        + rewrite (skipn_all2 bs) by lia. rewrite !firstn_nil, app_nil_r. f_equal.
      - destruct (Nat.le_gt_cases 8 (length bs)).
        + rewrite skipn_exact by (apply firstn_length_le; auto). apply IH.
        + rewrite (skipn_all2 bs) by lia. rewrite firstn_nil, app_nil_r. rewrite skipn_all2 by (rewrite firstn_length; lia). reflexivity. }
    symmetry. apply K.
  - split; cbn [rest failed]; auto.
Qed.

Definition sim {T} (f g : rstate -> outcome (T * rstate)) : Prop := forall st r st1 st',
  f st = Ok (r, st1) -> failed st1 = false -> same st st' -> failed st = false /\ exists st1', g st' = Ok (r, st1') /\ same st1 st1'.
Lemma sim_bind {T U} (f g : rstate -> outcome (T * rstate)) (h k : T -> rstate -> outcome (U * rstate)) :
  sim f g -> (forall r, sim (h r) (k r)) -> sim (fun st => '(r, st) <- f st ;; h r st) (fun st => '(r, st) <- g st ;; k r st).
Proof.
  intros F H st r st1 st' E Fl Sm. destruct (f st) as [[a s]| | |] eqn:Ef; try discriminate. cbn [bind] in E.
  destruct (failed s) eqn:Fs.
  - exfalso. destruct (H a s r st1 s E Fl (conj eq_refl eq_refl)) as [Q _]. congruence.
  - destruct (F st a s st' Ef Fs Sm) as (A & s' & B & C). split; [exact A|]. destruct (H a s r st1 s' E Fl C) as (_ & s2 & D & D'). exists s2. rewrite B. cbn [bind]. auto.
Qed.
Lemma sim_ret {T} (x : T) : sim (fun st => Ok (x, st)) (fun st => Ok (x, st)).
Proof. intros st r st1 st' E Fl Sm. inversion E; subst. split; [auto|]. exists st'. auto. Qed.
(* something that does not touch the stream *)
Lemma sim_pure {T U} (o : outcome T) (h k : T -> rstate -> outcome (U * rstate)) :
  (forall x, sim (h x) (k x)) -> sim (fun st => x <- o ;; h x st) (fun st => x <- o ;; k x st).
Proof. intros H st r st1 st' E. destruct o as [x| | |]; try discriminate. cbn [bind] in *. exact (H x st r st1 st' E). Qed.
Lemma sim_not {T} (g : rstate -> outcome (T * rstate)) o : (forall x, o <> Ok x) -> sim (fun _ => o) g.
Proof. intros H st r st1 st' E. exfalso. exact (H _ E). Qed.

Lemma sim_read_words n : sim (fun st => Ok (read_words junk0 n st)) (read_words_aix junk memory n).
Proof. intros st ws st1 st' E Fl Sm. apply (sim_words n st ws st1 st'); auto. inversion E; auto. Qed.
Lemma sim_word : sim (fun st => Ok (read_word junk0 st)) (read_word_aix junk memory).
Proof.
  intros st w st1 st' E Fl Sm. assert (E' : read_word junk0 st = (w, st1)) by (inversion E; auto). clear E. unfold read_word in E'. destruct (read_raw junk0 8 st) as [bs s] eqn:R. inversion E'; subst w s; clear E'.
  pose proof (raw_failed 8 st bs st1 R Fl) as (A & B & C & D).
  assert (W : read_words junk0 1 st = ([of_le bs], st1)). { unfold read_words. change (8 * 1) with 8. rewrite R. cbn [words]. rewrite firstn_all2; [reflexivity|]. subst bs. rewrite firstn_length. lia. }
  destruct (sim_words 1 st _ st1 st' W Fl Sm) as (_ & s' & X & Y). split; [auto|]. exists s'. unfold read_word_aix. rewrite X. cbn [bind rd nth_error]. auto.
Qed.
Lemma sim_name : sim (read_variable_name junk0) (read_variable_name chars).
Proof.
  intros st nm st1 st' E Fl [Sr Sf]. unfold read_variable_name in *. destruct (read_raw junk0 64 st) as [bs s] eqn:R.
  assert (Q : s = st1 /\ existsb (fun c => (c =? 0)%Z) bs = true /\ nm = cstr bs). { destruct (existsb _ bs); [|discriminate]. inversion E. auto. } destruct Q as (-> & Q & ->).
  pose proof (raw_failed 64 st bs st1 R Fl) as (A & B & C & D). split; [auto|]. unfold read_raw at 1. rewrite <- Sf, <- Sr, A. destruct (Nat.leb_spec 64 (length (rest st))); [|lia]. rewrite <- C, Q. eexists. split; [reflexivity|]. split; cbn [rest failed]; auto.
Qed.
Definition with_unit (f : rstate -> outcome rstate) (st : rstate) : outcome (unit * rstate) := st <- f st ;; Ok (tt, st).
Lemma sim_tag name type : sim (with_unit (read_tag junk0 name type)) (with_unit (read_tag_aix junk memory chars name type)).
Proof.
  intros st r st1 st' E Fl Sm. unfold with_unit in *. destruct (read_tag junk0 name type st) as [s| | |] eqn:R; try discriminate. cbn [bind] in E. inversion E; subst r s; clear E.
  unfold read_tag in R. destruct (read_variable_name junk0 st) as [[nm s1]| | |] eqn:N; try discriminate. cbn [bind] in R.
  destruct (negb (length name =? 0) && negb (eqb_string name nm)) eqn:G; [discriminate|]. destruct (read_word junk0 s1) as [w s2] eqn:Wd.
  destruct (negb (type =? to_signed w)%Z) eqn:T. { exfalso. destruct (tag_to_name type); try discriminate. cbn [bind] in R. destruct (tag_to_name (to_signed w)); discriminate. }
  assert (s2 = st1) by (inversion R; auto). subst s2. clear R.
  destruct (failed s1) eqn:F1. { exfalso. destruct (sim_word s1 w st1 s1 (f_equal Ok Wd) Fl (conj eq_refl eq_refl)) as [Q _]. congruence. }
  destruct (sim_name st nm s1 st' N F1 Sm) as (A & s1' & B & C). destruct (sim_word s1 w st1 s1' (f_equal Ok Wd) Fl C) as (_ & s2' & D & D').
  split; [auto|]. exists s2'. unfold read_tag_aix. rewrite B. cbn [bind]. rewrite G, D. cbn [bind]. rewrite T. cbn [bind]. auto.
Qed.
Lemma sim_ext {T} (f f' g g' : rstate -> outcome (T * rstate)) : (forall st, f st = f' st) -> (forall st, g st = g' st) -> sim f' g' -> sim f g.
Proof. intros Hf Hg S st r st1 st' E. rewrite Hf in E. rewrite Hg. exact (S st r st1 st' E). Qed.
Lemma sim_left {T} (f f' g : rstate -> outcome (T * rstate)) : (forall st, f st = f' st) -> sim f' g -> sim f g.
Proof. intros Hf S. exact (sim_ext f f' g g Hf (fun _ => eq_refl) S). Qed.
Lemma unit_bind {T} (f : rstate -> outcome rstate) (h : rstate -> outcome T) st : (s <- f st ;; h s) = ('(_, s) <- with_unit f st ;; h s).
Proof. unfold with_unit. destruct (f st); reflexivity. Qed.

Lemma sim_vector count : sim (fun st => '(length, st) <- Ok (read_word junk0 st) ;; n <- new_vector length ;; Ok (read_words junk0 (count * n) st)) (load_vector_aix junk memory count).
Proof. unfold load_vector_aix. apply sim_bind; [apply sim_word|]. intros l. apply (sim_pure (new_vector l) (fun n st => Ok (read_words junk0 (count * n) st))). intros n. apply sim_read_words. Qed.
Lemma sim_R name : sim (load_R junk0 name) (load_R_aix junk memory chars name).
Proof.
  eapply sim_ext; [intros st; unfold load_R; apply unit_bind|intros st; unfold load_R_aix; apply unit_bind|]. apply sim_bind; [apply sim_tag|]. intros _.
  apply (sim_left _ (fun st => '(dims, st) <- ('(length, st) <- Ok (read_word junk0 st) ;; n <- new_vector length ;; Ok (read_words junk0 (1 * n) st)) ;;
    '(v, st) <- ('(length, st) <- Ok (read_word junk0 st) ;; n <- new_vector length ;; Ok (read_words junk0 (1 * n) st)) ;;
    _ <- assert_ (total_sizeZ (map to_signed dims) =? Z.of_nat (length v))%Z ;; Ok (mkST (map to_signed dims) v, st)) _).
  - intros st. unfold load_indices, load_reals. cbn [bind]. destruct (read_word junk0 st) as [w s]. destruct (new_vector w) as [n| | |]; try reflexivity. cbn [bind]. rewrite Nat.mul_1_l. destruct (read_words junk0 n s) as [ds s1]. cbn [bind].
    destruct (read_word junk0 s1) as [w1 s2]. destruct (new_vector w1) as [n1| | |]; try reflexivity. cbn [bind]. rewrite Nat.mul_1_l. destruct (read_words junk0 n1 s2) as [v s3]. reflexivity.
  - apply sim_bind; [apply sim_vector|]. intros ds. apply sim_bind; [apply sim_vector|]. intros v. apply (sim_pure _ (fun _ st => Ok _)). intros _. apply sim_ret.
Qed.
Lemma sim_C name : sim (load_C junk0 name) (load_C_aix junk memory chars name).
Proof.
  eapply sim_ext; [intros st; unfold load_C; apply unit_bind|intros st; unfold load_C_aix; apply unit_bind|]. apply sim_bind; [apply sim_tag|]. intros _.
  apply (sim_left _ (fun st => '(dims, st) <- ('(length, st) <- Ok (read_word junk0 st) ;; n <- new_vector length ;; Ok (read_words junk0 (1 * n) st)) ;;
    '(v, st) <- ('(length, st) <- Ok (read_word junk0 st) ;; n <- new_vector length ;; Ok (read_words junk0 (2 * n) st)) ;;
    _ <- assert_ (total_sizeZ (map to_signed dims) =? Z.of_nat (length (pairs v)))%Z ;; Ok (mkST (map to_signed dims) (pairs v), st)) _).
  - intros st. unfold load_indices, load_complex. cbn [bind]. destruct (read_word junk0 st) as [w s]. destruct (new_vector w) as [n| | |]; try reflexivity. cbn [bind]. rewrite Nat.mul_1_l. destruct (read_words junk0 n s) as [ds s1]. cbn [bind].
    destruct (read_word junk0 s1) as [w1 s2]. destruct (new_vector w1) as [n1| | |]; try reflexivity. cbn [bind]. destruct (read_words junk0 (2 * n1) s2) as [v s3]. reflexivity.
  - apply sim_bind; [apply sim_vector|]. intros ds. apply sim_bind; [apply sim_vector|]. intros v. apply (sim_pure _ (fun _ st => Ok _)). intros _. apply sim_ret.
Qed.
Lemma sim_many {T} (f g : rstate -> outcome (T * rstate)) n : sim f g -> sim (load_many f n) (load_many g n).
Proof. intros S. induction n as [|n IH]; cbn [load_many]; [apply sim_ret|]. apply sim_bind; [exact S|]. intros t. apply sim_bind; [exact IH|]. intros l. apply sim_ret. Qed.
Lemma sim_vec {T} (f g : list Z -> rstate -> outcome (T * rstate)) type name : sim (f []) (g []) -> sim (load_vec junk0 f type name) (load_vec_aix junk memory chars g type name).
Proof.
  intros S. eapply sim_ext; [intros st; unfold load_vec; apply unit_bind|intros st; unfold load_vec_aix; apply unit_bind|]. apply sim_bind; [apply sim_tag|]. intros _.
  apply (sim_bind (fun st => Ok (read_word junk0 st)) _ (fun l st => if (2 ^ 56 <=? l)%Z then Abort else load_many (f []) (Z.to_nat l) st)); [apply sim_word|]. intros l.
  destruct (2 ^ 56 <=? l)%Z; [apply sim_not; discriminate|]. apply sim_many. exact S.
Qed.
Lemma sim_double name : sim (load_double junk0 name) (load_double_aix junk memory chars name).
Proof.
  unfold load_double, load_double_aix. apply sim_bind; [apply sim_R|]. intros t. destruct (1 <? length (selts t)); [apply sim_not; discriminate|]. apply (sim_pure (rd (selts t) 0) (fun x st => Ok (x, st))). intros x. apply sim_ret.
Qed.
Lemma sim_cdouble name : sim (load_cdouble junk0 name) (load_cdouble_aix junk memory chars name).
Proof.
  unfold load_cdouble, load_cdouble_aix. apply sim_bind; [apply sim_C|]. intros t. destruct (1 <? length (selts t)); [apply sim_not; discriminate|]. apply (sim_pure (rd (selts t) 0) (fun x st => Ok (x, st))). intros x. apply sim_ret.
Qed.
Lemma sim_load k name : sim (load junk0 k name) (load_aix junk memory chars k name).
Proof.
  destruct k; cbn [load load_aix].
  - apply sim_bind; [apply sim_double|]. intros w. apply (sim_pure (double_to (- 2 ^ 31) (2 ^ 31) w) (fun v st => Ok (VInt v, st))). intros v. apply sim_ret.
  - apply sim_bind; [apply sim_double|]. intros w. apply (sim_pure (double_to 0 (2 ^ 64) w) (fun v st => Ok (VSize v, st))). intros v. apply sim_ret.
  - apply sim_bind; [apply sim_double|]. intros w. apply sim_ret.
  - apply sim_bind; [apply sim_cdouble|]. intros w. apply sim_ret.
  - apply sim_bind; [apply sim_R|]. intros w. apply sim_ret.
  - apply sim_bind; [apply sim_C|]. intros w. apply sim_ret.
  - apply sim_bind; [apply sim_vec, sim_R|]. intros w. apply sim_ret.
  - apply sim_bind; [apply sim_vec, sim_C|]. intros w. apply sim_ret.
Qed.
Lemma sim_all l : sim (load_all junk0 l) (load_all_aix junk memory chars l).
Proof.
  induction l as [|[k name] l IH]; cbn [load_all load_all_aix]; [apply sim_ret|]. apply sim_bind; [apply sim_load|]. intros v. apply sim_bind; [exact IH|]. intros vs. apply sim_ret.
Qed.
End Sim.
