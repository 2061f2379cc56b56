(* Proofs about fftshift. *)
From Verif Require Import Base Spec L_Lin M_Tensor L_Tensor M_Range S_Range L_Range L_Slice M_Scale L_Scale M_Fft S_Fft.

Section Empty.
Local Open Scope Z_scope.
Lemma empty_view {A} (o : tensor A) b n a lo hi : dims o = [b; n; a] -> hi < Z.of_nat n -> 
  make_view o [SFull; SStep lo hi 1; SFull] = Ok ([Z.of_nat b; hi - lo + 1; Z.of_nat a],
     RProd (RFull (Z.of_nat b) 1 0 (Z.of_nat b)) (RProd (RStep (Z.of_nat n) (Z.of_nat b) (lo * Z.of_nat b) (lo * Z.of_nat b) (hi * Z.of_nat b) (Z.of_nat b)) (RFull (Z.of_nat a) (Z.of_nat b * Z.of_nat n) 0 (Z.of_nat a * (Z.of_nat b * Z.of_nat n))) 0) 0).
Proof.
  intros D H. unfold make_view. rewrite D. change (assert_ (length [b; n; a] =? length [SFull; SStep lo hi 1; SFull])%nat) with (Ok tt). cbn [bind].
  cbn [map make_range set_limits set_limit bind]. replace (0 <=? Z.of_nat b) with true by lia. replace (0 <=? Z.of_nat n) with true by lia. replace (0 <=? Z.of_nat a) with true by lia. replace (hi <? Z.of_nat n) with true by lia.
  cbn [assert_ bind mapM rsize product_all]. unfold product, cdiv. cbn [set_factor get_factor get_limit bind]. unfold cdiv. replace (1 =? 0) with false by lia. cbn [bind get_limit set_factor]. rewrite ?Z.quot_1_r, ?Z.mul_1_l, ?Z.mul_1_r. 
  cbn [bind get_limit set_factor]. unfold cdiv. replace (1 =? 0) with false by lia. cbn [bind get_limit set_factor]. rewrite ?Z.quot_1_r, ?Z.mul_1_l, ?Z.mul_1_r. reflexivity.
Qed.
Lemma empty_assign {A} (o ri : tensor A) b n a lo1 hi1 lo2 hi2 fuel :
  dims o = [b; n; a] -> dims ri = [b; n; a] -> (b * (n * a) = 0)%nat -> hi1 < Z.of_nat n -> hi2 < Z.of_nat n -> hi1 - lo1 = hi2 - lo2 -> (3 <= fuel)%nat ->
  assign_view fuel o [SFull; SStep lo1 hi1 1; SFull] ri [SFull; SStep lo2 hi2 1; SFull] = Ok o.
Proof.
  intros D1 D2 H0 H1 H2 E Hf. unfold assign_view. rewrite (empty_view o b n a) by auto. rewrite (empty_view ri b n a) by auto. cbn [bind]. rewrite E, Z.eqb_refl. cbn [assert_ bind].
  destruct fuel as [|[|[|fuel]]]; try lia. unfold reset. cbn [reset_with bind]. 
  assert (Hz : Z.of_nat a * (Z.of_nat b * Z.of_nat n) = 0) by nia. rewrite Hz.
  cbn [pop bind Z.leb Z.compare]. cbn [copy_view_loop pop Z.eqb nomore bind orb]. destruct o; reflexivity.
Qed.
End Empty.

Section Shift.
Context {A : Type}.
Implicit Types t c : tensor A.

Lemma nodup_seq n : NoDup (seq 0 n).
Proof. apply seq_NoDup. Qed.
Lemma nodup_arith1 a n : NoDup (arith a 1 n).
Proof.
  apply (NoDup_nth_error (arith a 1 n)). intros i j Hi E. rewrite length_arith in Hi. rewrite nth_arith in E by auto.
  destruct (Nat.lt_ge_cases j n) as [L|L]; [rewrite nth_arith in E by auto; injection E; lia|].
  rewrite (proj2 (nth_error_None (arith a 1 n) j)) in E by (rewrite length_arith; auto). discriminate.
Qed.
Lemma arith1_len n : 0 < n -> (n - 1 - 0) / 1 + 1 = n.
Proof. intros H. rewrite Nat.div_1_r. lia. Qed.

(* one slice assignment of the middle index *)
Lemma mid_assign (o ri : tensor A) b n a lo1 lo2 len :
  wf o -> wf ri -> dims o = [b; n; a] -> dims ri = [b; n; a] -> 0 < b -> 0 < a -> 0 < len ->
  lo1 + len <= n -> lo2 + len <= n ->
  exists o', wf o' /\ dims o' = [b; n; a] /\
    (forall i k j, i < b -> j < a -> k < len -> elt o' [i; lo1 + k; j] = elt ri [i; lo2 + k; j]) /\
    (forall i k j, i < b -> j < a -> k < n -> k < lo1 \/ lo1 + len <= k -> elt o' [i; k; j] = elt o [i; k; j]) /\
    exists F, forall fuel, F <= fuel ->
      assign_view fuel o [SFull; SStep (Z.of_nat lo1) (Z.of_nat (lo1 + len - 1)) 1; SFull]%Z
        ri [SFull; SStep (Z.of_nat lo2) (Z.of_nat (lo2 + len - 1)) 1; SFull]%Z = Ok o'.
Proof.
  intros Wo Wr Do Dr Hb Ha Hl H1 H2.
  assert (Sel : forall lo, lo + len <= n -> selections [b; n; a] [SFull; SStep (Z.of_nat lo) (Z.of_nat (lo + len - 1)) 1; SFull]%Z
                  [seq 0 b; arith lo 1 len; seq 0 a]).
  { intros lo Hlo. split; [constructor|]. split; [|split; [constructor|exact I]].
    pose proof (sel_step n lo (lo + len - 1) 1 ltac:(lia) ltac:(lia) ltac:(lia)) as S. 
    replace ((lo + len - 1 - lo) / 1 + 1) with len in S by (rewrite Nat.div_1_r; lia). exact S. }
  assert (Pos : forall t : tensor A, dims t = [b; n; a] -> Forall (fun d => 0 < d) (dims t)) by (intros t ->; repeat (apply Forall_cons; [lia|]); apply Forall_nil).
  assert (Hsz : forall lo, sizes [seq 0 b; arith lo 1 len; seq 0 a] = [b; len; a]).
  { intros lo. unfold sizes. cbn [map]. rewrite !seq_length, length_arith. reflexivity. }
  assert (Hpk : forall lo i k j, i < b -> k < len -> j < a -> picks [seq 0 b; arith lo 1 len; seq 0 a] [i; k; j] [i; lo + k; j]).
  { intros lo i k j Hi Hk Hj. cbn [picks]. rewrite nth_arith by auto.
    assert (G : forall m q, q < m -> nth_error (seq 0 m) q = Some q) by exact nth_error_seq0.
    rewrite !G by auto. repeat split; auto. f_equal. lia. }
  destruct (proj1 (c10_view o _ _ Wo ltac:(rewrite Do; discriminate) (Pos o Do) ltac:(rewrite Do; apply Sel; exact H1)
    ltac:(apply Forall_cons; [apply nodup_seq|]; apply Forall_cons; [apply nodup_arith1|]; apply Forall_cons; [apply nodup_seq|apply Forall_nil])
    ri _ _ Wr ltac:(rewrite Dr; discriminate) (Pos ri Dr) ltac:(rewrite Dr; apply Sel; exact H2)) ltac:(rewrite !Hsz; reflexivity))
    as (o' & vals & (Wo' & Do' & P1 & P2) & P3 & F & HF).
  exists o'. split; [auto|]. split; [congruence|]. split; [|split].
  - intros i k j Hi Hj Hk. rewrite (P1 [i; k; j] _ (Hpk lo1 i k j Hi Hk Hj)), <- (P3 [i; k; j] _ (Hpk lo2 i k j Hi Hk Hj)). rewrite !Hsz. reflexivity.
  - intros i k j Hi Hj Hk Hout. apply P2. intros ks Hp. destruct ks as [|k0 [|k1 ks]]; cbn [picks] in Hp; try tauto.
    destruct Hp as (_ & Hp & _). destruct (Nat.lt_ge_cases k1 len) as [L|L].
    + rewrite nth_arith in Hp by auto. injection Hp as Hp. lia.
    + assert (Hn : nth_error (arith lo1 1 len) k1 = None) by (apply nth_error_None; rewrite length_arith; auto). congruence.
  - exists F. exact HF.
Qed.

Lemma nth_error_split' {T} (l : list T) k x : nth_error l k = Some x -> l = firstn k l ++ x :: skipn (S k) l.
Proof. revert k. induction l as [|a l IH]; intros [|k] H; try discriminate; [injection H as ->; reflexivity|]. cbn [firstn skipn app]. f_equal. apply IH. exact H. Qed.
Lemma prod_pos ds : Forall (fun d => 0 < d) ds -> 0 < prod ds.
Proof. induction 1; [cbn; lia|]. rewrite prod_cons. nia. Qed.
Lemma total_prod ds : ds <> [] -> total_size ds = prod ds.
Proof. intros H. rewrite total_size_nelem. apply nelem_prod. auto. Qed.

(* the two parts of the index change places *)
Definition rot (minf nh x : nat) : nat := if x <? minf then x + nh else x - minf.

Lemma elt_mid t p l s u x w : dims t = p ++ l :: s -> valid p u -> x < l -> valid s w ->
  elt t (u ++ x :: w) = elt (mkT [prod p; l; prod s] (data t)) [lin p u; x; lin s w].
Proof.
  intros Hd Hu Hx Hw. rewrite !elt_valid.
  - rewrite Hd. cbn [dims data]. f_equal. rewrite lin_app by (apply valid_length; auto). rewrite !lin_cons, lin_nil. lia.
  - cbn [dims]. apply valid_cons. split; [apply lin_lt; auto|]. apply valid_cons. split; [auto|]. apply valid_cons. split; [apply lin_lt; auto|]. apply valid_nil; reflexivity.
  - rewrite Hd. apply valid_app; [apply valid_length; auto|]. split; [auto|]. apply valid_cons. auto.
Qed.

Definition target (dir : Z) (l x : nat) : nat :=
  if (dir =? FFTW_BACKWARD)%Z then (x + (l - l / 2)) mod l else shifted l x.

Lemma rot_mod minf nh x : x < minf + nh -> 0 < minf -> rot minf nh x = (x + nh) mod (minf + nh).
Proof.
  intros Hx H0. unfold rot. destruct (Nat.ltb_spec x minf); [rewrite Nat.mod_small by lia; reflexivity|].
  replace (x + nh) with (x - minf + 1 * (minf + nh)) by lia. rewrite Nat.mod_add by lia. rewrite Nat.mod_small by lia. reflexivity.
Qed.

Lemma split_ok dir n : 1 < n -> exists minf nh, 0 < minf /\ 0 < nh /\ minf + nh = n /\
  (if n mod 2 =? 1 then if (dir =? FFTW_BACKWARD)%Z then ((n + 1) / 2 - 1, (n - 1) / 2 + 1) else ((n + 1) / 2, (n - 1) / 2) else (n / 2, n / 2)) = (minf, nh) /\
  forall x, x < n -> rot minf nh x = target dir n x.
Proof.
  intros Hn. pose proof (Nat.div_mod n 2 ltac:(lia)) as E. pose proof (Nat.mod_upper_bound n 2 ltac:(lia)) as Hm. set (h := n / 2) in *.
  assert (T : forall minf nh, 0 < minf -> minf + nh = n -> (if (dir =? FFTW_BACKWARD)%Z then nh = n - h else nh = h) -> forall x, x < n -> rot minf nh x = target dir n x).
  { intros minf nh H0 Hs Hd x Hx. rewrite rot_mod by lia. unfold target, shifted. rewrite Hs. fold h. destruct (dir =? FFTW_BACKWARD)%Z; rewrite Hd; reflexivity. }
  destruct (Nat.eqb_spec (n mod 2) 1) as [Ho|He].
  - assert (E1 : (n + 1) / 2 = S h) by (symmetry; apply (Nat.div_unique (n + 1) 2 (S h) 0); lia).
    assert (E2 : (n - 1) / 2 = h) by (symmetry; apply (Nat.div_unique (n - 1) 2 h 0); lia). rewrite E1, E2.
    destruct (dir =? FFTW_BACKWARD)%Z eqn:Ed.
    + exists (S h - 1), (h + 1). repeat split; try lia. apply T; lia.
    + exists (S h), h. repeat split; try lia. apply T; lia.
  - exists h, h. repeat split; try lia. apply T; try lia. destruct (dir =? FFTW_BACKWARD)%Z; lia.
Qed.

Lemma shift_dim junk dir t p l s : wf t -> dims t = p ++ l :: s ->
  exists c, wf c /\ dims c = dims t /\
    (forall u x w, valid p u -> x < l -> valid s w -> elt c (u ++ target dir l x :: w) = elt t (u ++ x :: w)) /\
    exists F, forall fuel, F <= fuel -> fftshift_dim fuel junk t (Z.of_nat (length p)) dir = Ok c.
Proof.
  intros W Hd.
  assert (Hlen : length (data t) = prod p * (l * prod s)).
  { rewrite W, Hd, nelem_prod by (destruct p; discriminate). rewrite prod_app, prod_cons. reflexivity. }
  assert (Hrank : (Z.of_nat (length p) <? Z.of_nat (length (dims t)))%Z = true) by (rewrite Hd, app_length; cbn [length]; lia).
  assert (Hpre : forall fuel, fftshift_dim fuel junk t (Z.of_nat (length p)) dir = 
     (if l =? 1 then Ok t else
      let output := new_tensor junk [prod p; l; prod s] in
  reshape_input <- reshape t (dims output) ;;
  let '(minfreq, Nhalf) :=
    if l mod 2 =? 1 then
      if (dir =? FFTW_BACKWARD)%Z then ((l + 1) / 2 - 1, (l - 1) / 2 + 1)
      else ((l + 1) / 2, (l - 1) / 2)
    else (l / 2, l / 2) in
  let end_ := (Z.of_nat l - 1)%Z in
  output <- assign_view fuel output [SFull; SStep 0 (Z.of_nat Nhalf - 1) 1; SFull]%Z
              reshape_input [SFull; SStep (Z.of_nat minfreq) end_ 1; SFull]%Z ;;
  output <- assign_view fuel output [SFull; SStep (Z.of_nat Nhalf) end_ 1; SFull]%Z
              reshape_input [SFull; SStep 0 (Z.of_nat minfreq - 1) 1; SFull]%Z ;;
  reshape output (dims t))).
  { intros fuel. unfold fftshift_dim. rewrite Hrank. replace (0 <=? Z.of_nat (length p))%Z with true by lia. cbn [andb assert_ bind]. rewrite Nat2Z.id.
    rewrite (rd_ok (dims t) (length p) l) by (rewrite Hd, nth_error_app2, Nat.sub_diag by lia; reflexivity). cbn [bind].
    destruct (l =? 1); [reflexivity|].
    pose proof (surrounding_ok p l s) as Hso. unfold surrounding_dimensions in Hso. rewrite Hd.
    rewrite (prod_range_ok [] p (l :: s) : prod_range (p ++ l :: s) 0 (length p) = Ok (prod p)) in *. cbn [bind] in *.
    destruct (rd (p ++ l :: s) (length p)); cbn [bind] in Hso; try discriminate.
    destruct (prod_range (p ++ l :: s) (S (length p)) (length (p ++ l :: s))) as [q| | |]; cbn [bind] in Hso; try discriminate.
    injection Hso as _ Hso. subst q. cbn [bind]. reflexivity. }
  destruct (Nat.eqb_spec l 1) as [->|Hl1].
  - exists t. split; [auto|]. split; [auto|]. split; [|exists 0; intros fuel _; apply Hpre]. intros u x w Hu Hx Hw. replace (target dir 1 x) with x; [reflexivity|].
    assert (x = 0) by lia. subst x. unfold target, shifted. destruct (dir =? FFTW_BACKWARD)%Z; rewrite Nat.mod_1_r; reflexivity.
  - destruct (Nat.eq_dec (prod p * (l * prod s)) 0) as [Hz|Hz].
    { exists t. split; [auto|]. split; [auto|]. split.
      - intros u x w Hu Hx Hw. exfalso. apply lin_lt in Hu, Hw. clear Hpre. destruct (Nat.eq_mul_0 (prod p) (l * prod s)) as [[G|G] _]; [exact Hz|lia|]. destruct (Nat.eq_mul_0 l (prod s)) as [[G'|G'] _]; [exact G|lia|lia].
      - exists 3. intros fuel Hf. rewrite Hpre. replace (l =? 1) with false by lia. cbv zeta.
        assert (Ed : data t = []) by (apply length_zero_iff_nil; lia).
        assert (Eo : new_tensor junk [prod p; l; prod s] = mkT [prod p; l; prod s] (data t)).
        { unfold new_tensor. f_equal. rewrite Ed. rewrite total_prod by discriminate. rewrite !prod_cons. change (prod []) with 1. replace (prod p * (l * (prod s * 1))) with 0 by lia. reflexivity. }
        rewrite Eo. cbn [dims]. unfold reshape at 1. rewrite total_prod by discriminate. rewrite !prod_cons. change (prod []) with 1. replace (_ =? _) with true by lia. cbn [assert_ bind].
        assert (Hmn : exists minf nh, minf + nh = l /\ (if l mod 2 =? 1 then if (dir =? FFTW_BACKWARD)%Z then ((l + 1) / 2 - 1, (l - 1) / 2 + 1) else ((l + 1) / 2, (l - 1) / 2) else (l / 2, l / 2)) = (minf, nh)).
        { destruct (Nat.eq_dec l 0) as [->|]; [exists 0, 0; split; reflexivity|]. destruct (split_ok dir l ltac:(lia)) as (minf & nh & _ & _ & Hs & Es & _). exists minf, nh. auto. }
        destruct Hmn as (minf & nh & Hs & ->).
        rewrite (empty_assign _ _ (prod p) l (prod s)) by (reflexivity || lia). cbn [bind]. rewrite (empty_assign _ _ (prod p) l (prod s)) by (reflexivity || lia). cbn [bind].
        unfold reshape. cbn [data]. rewrite total_size_nelem, <- W, Nat.eqb_refl. cbn [assert_ bind]. destruct t; reflexivity. }
    assert (Hb : 0 < prod p) by nia. assert (Ha : 0 < prod s) by nia. assert (Hl : 0 < l) by nia.
    destruct (split_ok dir l ltac:(lia)) as (minf & nh & Hmf & Hnh & Hsum & Esp & Hrot).
    assert (Er : reshape t [prod p; l; prod s] = Ok (mkT [prod p; l; prod s] (data t))).
    { unfold reshape. rewrite total_prod by discriminate. rewrite !prod_cons. change (prod []) with 1. replace (_ =? _) with true by lia. reflexivity. }
    set (ri := mkT [prod p; l; prod s] (data t)) in *.
    assert (Wr : wf ri) by (unfold wf, ri; cbn [dims data]; rewrite Hlen, nelem_prod by discriminate; rewrite !prod_cons; change (prod []) with 1; lia).
    destruct (mid_assign (new_tensor junk [prod p; l; prod s]) ri (prod p) l (prod s) 0 minf nh) as (o1 & W1 & D1 & P1 & _ & F1 & HF1); auto; try lia.
    { unfold wf, new_tensor. cbn [dims data]. rewrite length_alloc. apply total_size_nelem. }
    destruct (mid_assign o1 ri (prod p) l (prod s) nh 0 minf) as (o2 & W2 & D2 & P2 & P3 & F2 & HF2); auto; try lia.
    assert (Ho2 : length (data o2) = prod p * (l * prod s)) by (rewrite W2, D2, nelem_prod by discriminate; rewrite !prod_cons; change (prod []) with 1; lia).
    exists (mkT (dims t) (data o2)). split; [unfold wf; cbn [dims data]; rewrite Ho2, <- Hlen; exact W|]. split; [reflexivity|]. split.
    + intros u x w Hu Hx Hw.
      assert (Ht : target dir l x < l) by (rewrite <- Hrot by auto; unfold rot; destruct (Nat.ltb_spec x minf); lia).
      rewrite (elt_mid (mkT (dims t) (data o2)) p l s) by auto. rewrite (elt_mid t p l s) by auto. cbn [data]. fold ri.
      assert (Eo2 : mkT [prod p; l; prod s] (data o2) = o2) by (clear - D2; destruct o2 as [dd xx]; cbn [dims data] in *; subst dd; reflexivity). rewrite Eo2.
      assert (lin p u < prod p) by (apply lin_lt; auto). assert (lin s w < prod s) by (apply lin_lt; auto).
      rewrite <- Hrot by auto. unfold rot. destruct (Nat.ltb_spec x minf).
      * rewrite (Nat.add_comm x nh). rewrite P2 by auto. reflexivity.
      * rewrite P3 by (auto; lia). change (x - minf) with (0 + (x - minf)). rewrite P1 by (auto; lia). do 3 f_equal. lia.
    + exists (Nat.max F1 F2). intros fuel Hf. rewrite Hpre. replace (l =? 1) with false by lia. cbv zeta. change (dims (new_tensor junk [prod p; l; prod s])) with [prod p; l; prod s]. rewrite Er. cbn [bind]. rewrite Esp.
      assert (HF1' := HF1 fuel ltac:(lia)). assert (HF2' := HF2 fuel ltac:(lia)).
      assert (X1 : (Z.of_nat nh - 1 = Z.of_nat (0 + nh - 1))%Z) by lia. assert (X2 : (Z.of_nat l - 1 = Z.of_nat (minf + nh - 1))%Z) by lia.
      assert (X3 : (Z.of_nat minf - 1 = Z.of_nat (0 + minf - 1))%Z) by lia. change (Z.of_nat 0) with 0%Z in *.
      rewrite X1, X2, X3, HF1'. cbn [bind]. rewrite (Nat.add_comm minf nh), HF2'. cbn [bind]. unfold reshape. rewrite total_size_nelem. rewrite <- W. replace (_ =? _) with true by lia. reflexivity.
Qed.

(* ---- several dimensions ---- *)
Fixpoint targets (dir : Z) (convert : list bool) (ds ix : list nat) : list nat :=
  match convert, ds, ix with
  | c :: convert, d :: ds, x :: ix => (if c : bool then target dir d x else x) :: targets dir convert ds ix
  | _, _, _ => []
  end.
Lemma target_lt dir l x : x < l -> target dir l x < l.
Proof. intros H. unfold target, shifted. destruct (dir =? FFTW_BACKWARD)%Z; apply Nat.mod_upper_bound; lia. Qed.
Lemma targets_valid dir conv ds ix : length conv = length ds -> valid ds ix -> valid ds (targets dir conv ds ix).
Proof.
  revert ds ix. induction conv as [|c conv IH]; intros [|d ds] ix Hl Hv; try discriminate; [apply valid_nil in Hv; subst; apply valid_nil; reflexivity|].
  destruct (valid_cons_inv _ _ _ Hv) as (x & ix' & -> & Hx & Hv'). cbn [targets]. apply valid_cons. split; [destruct c; auto using target_lt|]. apply IH; auto.
Qed.
Lemma targets_app dir (c1 c2 : list bool) d1 d2 i1 i2 : length c1 = length d1 -> length i1 = length d1 ->
  targets dir (c1 ++ c2) (d1 ++ d2) (i1 ++ i2) = targets dir c1 d1 i1 ++ targets dir c2 d2 i2.
Proof.
  revert d1 i1. induction c1 as [|c c1 IH]; intros [|d d1] [|i i1] H1 H2; try discriminate; [reflexivity|]. cbn [app targets]. f_equal. apply IH; auto.
Qed.
Lemma targets_length dir conv ds ix : length conv = length ds -> length ix = length ds -> length (targets dir conv ds ix) = length ds.
Proof. revert ds ix. induction conv; intros [|d ds] [|i ix] H1 H2; try discriminate; [reflexivity|]. cbn [targets length]. f_equal. auto. Qed.

Lemma shift_some junk dir conv t : wf t -> length (dims t) = length conv ->
  forall k, k <= length conv -> exists c, wf c /\ dims c = dims t /\
    (forall ix, valid (dims t) ix ->
       elt c (targets dir (firstn k conv) (firstn k (dims t)) (firstn k ix) ++ skipn k ix) = elt t ix) /\
    exists F, forall fuel, F <= fuel ->
      for_ k (fun dim output => c <- rd conv dim ;; if c : bool then fftshift_dim fuel junk output (Z.of_nat dim) dir else Ok output) t = Ok c.
Proof.
  intros W Hlen. induction k as [|k IH]; intros Hk.
  - exists t. split; [auto|]. split; [auto|]. split; [intros ix _; reflexivity|]. exists 0. reflexivity.
  - destruct IH as (c & Wc & Dc & Ec & F & HF); [lia|].
    destruct (nth_error_lt conv k ltac:(lia)) as (b & Hb). destruct (nth_error_lt (dims t) k ltac:(lia)) as (l & Hl).
    assert (Hsp : dims t = firstn k (dims t) ++ l :: skipn (S k) (dims t)) by (apply nth_error_split'; auto).
    assert (Hspc : conv = firstn k conv ++ b :: skipn (S k) conv) by (apply nth_error_split'; auto).
    set (p := firstn k (dims t)) in *. set (s := skipn (S k) (dims t)) in *.
    assert (Lp : length p = k) by (unfold p; rewrite firstn_length; lia).
    assert (Lc : length (firstn k conv) = k) by (rewrite firstn_length; lia).
    assert (Fd : firstn (S k) (dims t) = p ++ [l]) by (rewrite Hsp; rewrite firstn_app, Lp; rewrite firstn_all2 by lia; replace (S k - k) with 1 by lia; reflexivity).
    assert (Fc : firstn (S k) conv = firstn k conv ++ [b]).
    { rewrite Hspc at 1. rewrite firstn_app, Lc. rewrite firstn_all2 by lia. replace (S k - k) with 1 by lia. reflexivity. }
    assert (Step : exists c', wf c' /\ dims c' = dims t /\
       (forall u x w, valid p u -> x < l -> valid s w -> elt c' (u ++ (if b then target dir l x else x) :: w) = elt c (u ++ x :: w)) /\
       exists F', forall fuel, F' <= fuel -> (if b then fftshift_dim fuel junk c (Z.of_nat k) dir else Ok c) = Ok c').
    { destruct b.
      - destruct (shift_dim junk dir c p l s Wc ltac:(congruence)) as (c' & W' & D' & E' & F' & HF').
        exists c'. split; [auto|]. split; [congruence|]. split; [auto|]. exists F'. intros fuel Hf. rewrite <- Lp. auto.
      - exists c. split; [auto|]. split; [auto|]. split; [auto|]. exists 0. auto. }
    destruct Step as (c' & W' & D' & E' & F' & HF'). exists c'. split; [auto|]. split; [auto|]. split.
    + intros ix Hv. rewrite Hsp in Hv. assert (Hv' := Hv). apply valid_app_inv in Hv' as (u & xw & -> & Hu & Hxw). apply valid_cons_inv in Hxw as (x & w & -> & Hx & Hw).
      assert (Lu : length u = k) by (rewrite <- Lp; apply valid_length; auto). rewrite <- (Ec (u ++ x :: w)) by (rewrite Hsp; auto).
      rewrite Fc, Fd. fold p.
      assert (F1 : firstn (S k) (u ++ x :: w) = u ++ [x]) by (rewrite firstn_app, Lu, firstn_all2 by lia; replace (S k - k) with 1 by lia; reflexivity).
      assert (F2 : skipn (S k) (u ++ x :: w) = w) by (rewrite skipn_app, Lu, skipn_all2 by lia; replace (S k - k) with 1 by lia; reflexivity).
      assert (F3 : firstn k (u ++ x :: w) = u) by (rewrite firstn_app, Lu, firstn_all2 by lia; rewrite Nat.sub_diag; apply app_nil_r).
      assert (F4 : skipn k (u ++ x :: w) = x :: w) by (rewrite skipn_app, Lu, skipn_all2 by lia; rewrite Nat.sub_diag; reflexivity).
      rewrite F1, F2, F3, F4. rewrite targets_app by lia. rewrite <- app_assoc. cbn [targets app].
      apply E'; auto. apply targets_valid; [lia|auto].
    + exists (Nat.max F F'). intros fuel Hf. rewrite for_S. rewrite HF by lia. cbn [bind]. rewrite (rd_ok _ _ _ Hb). cbn [bind]. apply HF'. lia.
Qed.
End Shift.

Lemma targets_forward conv ds ix : targets FFTW_FORWARD conv ds ix = shifted_some conv ds ix.
Proof. revert ds ix. induction conv as [|c conv IH]; intros [|d ds] [|i ix]; try reflexivity. cbn [targets shifted_some]. f_equal. apply IH. Qed.
Lemma target_back l x : x < l -> target FFTW_BACKWARD l (shifted l x) = x.
Proof.
  intros H. unfold target, shifted. cbn [Z.eqb FFTW_BACKWARD Pos.eqb]. rewrite Nat.add_mod_idemp_l by lia. pose proof (Nat.div_le_upper_bound l 2 l ltac:(lia) ltac:(lia)).
  replace (x + l / 2 + (l - l / 2)) with (x + 1 * l) by lia. rewrite Nat.mod_add by lia. apply Nat.mod_small. auto.
Qed.
Lemma targets_back conv ds ix : length conv = length ds -> valid ds ix -> targets FFTW_BACKWARD conv ds (shifted_some conv ds ix) = ix.
Proof.
  revert ds ix. induction conv as [|c conv IH]; intros [|d ds] ix Hl Hv; try discriminate; [apply valid_nil in Hv; subst; reflexivity|].
  destruct (valid_cons_inv _ _ _ Hv) as (x & ix' & -> & Hx & Hv'). cbn [targets shifted_some]. f_equal; [destruct c; auto using target_back|]. apply IH; auto.
Qed.
Lemma shifted_valid conv ds ix : length conv = length ds -> valid ds ix -> valid ds (shifted_some conv ds ix).
Proof. rewrite <- targets_forward. apply targets_valid. Qed.
Lemma shifted_trues ds ix : length ix = length ds -> shifted_some (repeat true (length ds)) ds ix = shifted_all ds ix.
Proof. revert ix. induction ds as [|d ds IH]; intros [|i ix] H; try discriminate; [reflexivity|]. cbn [length repeat shifted_some shifted_all]. f_equal. auto. Qed.
(* a unique position goes to each one *)
Lemma unshift l y : y < l -> exists x, x < l /\ shifted l x = y.
Proof.
  intros H. exists ((y + (l - l / 2)) mod l). split; [apply Nat.mod_upper_bound; lia|]. unfold shifted. rewrite Nat.add_mod_idemp_l by lia.
  pose proof (Nat.div_le_upper_bound l 2 l ltac:(lia) ltac:(lia)). replace (y + (l - l / 2) + l / 2) with (y + 1 * l) by lia. rewrite Nat.mod_add by lia. apply Nat.mod_small. auto.
Qed.
Lemma unshift_some conv ds ix : length conv = length ds -> valid ds ix -> exists ix0, valid ds ix0 /\ shifted_some conv ds ix0 = ix.
Proof.
  revert ds ix. induction conv as [|c conv IH]; intros [|d ds] ix Hl Hv; try discriminate; [apply valid_nil in Hv; subst; exists []; split; [apply valid_nil|]; reflexivity|].
  destruct (valid_cons_inv _ _ _ Hv) as (x & ix' & -> & Hx & Hv'). destruct (IH ds ix' ltac:(auto) Hv') as (i0 & H0 & E0).
  destruct c.
  - destruct (unshift d x Hx) as (x0 & Hx0 & Ex0). exists (x0 :: i0). split; [apply valid_cons; auto|]. cbn [shifted_some]. congruence.
  - exists (x :: i0). split; [apply valid_cons; auto|]. cbn [shifted_some]. congruence.
Qed.

Section Main.
Context {A : Type}.
Implicit Types t c : tensor A.

Lemma some_ok junk dir conv t : wf t -> length conv = length (dims t) ->
  exists c, wf c /\ dims c = dims t /\ (forall ix, valid (dims t) ix -> elt c (targets dir conv (dims t) ix) = elt t ix) /\
    exists F, forall fuel, F <= fuel -> fftshift_some fuel junk t conv dir = Ok c.
Proof.
  intros W Hl. destruct (shift_some junk dir conv t W ltac:(auto) (length conv) ltac:(lia)) as (c & Wc & Dc & Ec & F & HF).
  exists c. split; [auto|]. split; [auto|]. split.
  - intros ix Hv. rewrite <- (Ec ix Hv). pose proof (valid_length _ _ Hv) as Li. rewrite !firstn_all2, skipn_all2 by lia. rewrite app_nil_r. reflexivity.
  - exists F. intros fuel Hf. unfold fftshift_some. rewrite Hl, Nat.eqb_refl. cbn [assert_ bind]. rewrite <- Hl. apply HF. auto.
Qed.
Lemma all_some fuel junk dir t : fftshift_all fuel junk t dir = fftshift_some fuel junk t (repeat true (length (dims t))) dir.
Proof.
  unfold fftshift_all, fftshift_some. rewrite repeat_length, Nat.eqb_refl. cbn [assert_ bind]. apply for_ext. intros i c Hi. rewrite (rd_ok _ i true); [reflexivity|].
  rewrite nth_error_repeat by auto. reflexivity.
Qed.
Lemma tensor_ext t c : wf t -> wf c -> dims c = dims t -> (forall ix, valid (dims t) ix -> elt c ix = elt t ix) -> c = t.
Proof.
  intros Wt Wc D E. destruct t as [dt xt], c as [dc xc]. cbn [dims data] in *. subst dc. f_equal. unfold wf in *. cbn [dims data] in *.
  apply list_eq_nth_len; [congruence|]. intros q Hq. destruct dt as [|d dt]; [cbn [nelem] in *; lia|]. rewrite Wc, nelem_prod in Hq by discriminate.
  destruct (lin_surj _ q Hq) as (ix & Hv & <-). specialize (E ix Hv). rewrite !elt_valid in E by auto. exact E.
Qed.
End Main.
