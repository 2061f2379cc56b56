(* Lemmas for P_Matgrid.v *)
From Coq Require Import QArith Lqa Permutation Sorting.Sorted.
From Verif Require Import Base Spec S_Pysdf S_Matsdf S_Matsort M_Pysdf M_Matsort L_Pysdf L_Matsort.
Local Open Scope nat_scope.

(* ---- minimum and maximum ---- *)
Lemma qmin_fold l : forall v, let m := fold_left (fun m w => if Qle_bool m w then m else w) l v in
  (m = v \/ In m l) /\ (m <= v)%Q /\ (forall w, In w l -> m <= w)%Q.
Proof.
  induction l as [|w l IH]; intros v; cbn [fold_left]; cbv zeta; [split; [auto|]; split; [apply Qle_refl|easy]|].
  specialize (IH (if Qle_bool v w then v else w)). cbv zeta in IH. set (m := fold_left _ l _) in *. destruct IH as (I1 & I2 & I3).
  destruct (Qle_bool v w) eqn:C.
  - apply Qle_bool_iff in C. split; [destruct I1; [auto|right; right; auto]|]. split; [exact I2|]. intros u [<-|Iu]; [lra|auto].
  - assert (C' : (w < v)%Q) by (apply Qnot_le_lt; intros Q; apply Qle_bool_iff in Q; congruence).
    split; [right; destruct I1; [left; auto|right; auto]|]. split; [lra|]. intros u [<-|Iu]; [lra|auto].
Qed.
Lemma qmin_spec l : l <> [] -> In (qmin l) l /\ (forall w, In w l -> qmin l <= w)%Q.
Proof.
  destruct l as [|v l]; [congruence|]. intros _. unfold qmin. destruct (qmin_fold l v) as (I1 & I2 & I3). split.
  - destruct I1 as [->|I1]; [left; auto|right; auto].
  - intros w [<-|Iw]; auto.
Qed.
Lemma qmax_fold l : forall v, let m := fold_left (fun m w => if Qle_bool w m then m else w) l v in
  (m = v \/ In m l) /\ (v <= m)%Q /\ (forall w, In w l -> w <= m)%Q.
Proof.
  induction l as [|w l IH]; intros v; cbn [fold_left]; cbv zeta; [split; [auto|]; split; [apply Qle_refl|easy]|].
  specialize (IH (if Qle_bool w v then v else w)). cbv zeta in IH. set (m := fold_left _ l _) in *. destruct IH as (I1 & I2 & I3).
  destruct (Qle_bool w v) eqn:C.
  - apply Qle_bool_iff in C. split; [destruct I1; [auto|right; right; auto]|]. split; [exact I2|]. intros u [<-|Iu]; [lra|auto].
  - assert (C' : (v < w)%Q) by (apply Qnot_le_lt; intros Q; apply Qle_bool_iff in Q; congruence).
    split; [right; destruct I1; [left; auto|right; auto]|]. split; [lra|]. intros u [<-|Iu]; [lra|auto].
Qed.
Lemma qmax_spec l : l <> [] -> In (qmax l) l /\ (forall w, In w l -> w <= qmax l)%Q.
Proof.
  destruct l as [|v l]; [congruence|]. intros _. unfold qmax. destruct (qmax_fold l v) as (I1 & I2 & I3). split.
  - destruct I1 as [->|I1]; [left; auto|right; auto].
  - intros w [<-|Iw]; auto.
Qed.
Lemma shifted_nth l p : p < length l -> nth p (shifted l) 0%Q = (nth p l 0 - qmin l)%Q.
Proof.
  intros L. unfold shifted. rewrite (nth_indep _ 0%Q (0 - qmin l)%Q) by (rewrite map_length; auto).
  exact (map_nth (fun v => v - qmin l)%Q l 0%Q p).
Qed.
Lemma shifted_length l : length (shifted l) = length l.
Proof. apply map_length. Qed.

(* ---- injections of 0, ..., l-1 into itself ---- *)
Lemma inj_perm (f : nat -> nat) l : (forall p, p < l -> f p < l) -> (forall p q, p < l -> q < l -> f p = f q -> p = q) -> Permutation (map f (seq 0 l)) (seq 0 l).
Proof.
  intros B I. assert (N : NoDup (map f (seq 0 l))).
  { assert (G : forall n k, k + n <= l -> NoDup (map f (seq k n))).
    { induction n as [|n IH]; intros k Lk; cbn [seq map]; constructor; [|apply IH; lia].
      intros H. apply in_map_iff in H. destruct H as (q & Eq & Iq). apply in_seq in Iq. assert (q = k) by (apply I; lia). lia. }
    apply G. lia. }
  apply NoDup_Permutation_bis; [exact N|rewrite map_length; apply le_n|].
  intros x Ix. apply in_map_iff in Ix. destruct Ix as (p & <- & Ip). apply in_seq in Ip. apply in_seq. specialize (B p ltac:(lia)). lia.
Qed.
Lemma inj_onto (f : nat -> nat) l : (forall p, p < l -> f p < l) -> (forall p q, p < l -> q < l -> f p = f q -> p = q) -> forall r, r < l -> exists p, p < l /\ f p = r.
Proof.
  intros B I r L. assert (H : In r (map f (seq 0 l))) by (apply (Permutation_in _ (Permutation_sym (inj_perm f l B I))), in_seq; lia).
  apply in_map_iff in H. destruct H as (p & <- & Ip). apply in_seq in Ip. exists p. split; [lia|reflexivity].
Qed.
Lemma mono_id (f : nat -> nat) l : (forall a, a < l -> f a < l) -> (forall a b, a < b < l -> f a < f b) -> forall a, a < l -> f a = a.
Proof.
  intros B M a L. assert (G : forall b, b < l -> b <= f b).
  { induction b as [|b IH]; intros Lb; [lia|]. specialize (IH ltac:(lia)). specialize (M b (S b) ltac:(lia)). lia. }
  assert (H : forall d, a + d < l -> f a + d <= f (a + d)).
  { induction d as [|d IH]; intros Ld; [rewrite !Nat.add_0_r; lia|]. specialize (IH ltac:(lia)). specialize (M (a + d) (a + S d) ltac:(lia)). lia. }
  specialize (G a L). specialize (H (l - 1 - a) ltac:(lia)). specialize (B (a + (l - 1 - a)) ltac:(lia)). lia.
Qed.
Lemma Permutation_filter_ {A} (f : A -> bool) l l' : Permutation l l' -> Permutation (filter f l) (filter f l').
Proof.
  induction 1 as [|x l l' P IH|x y l|l1 l2 l3 P1 IH1 P2 IH2]; cbn [filter]; auto.
  - destruct (f x); auto.
  - destruct (f x), (f y); auto. apply perm_swap.
  - eapply Permutation_trans; eauto.
Qed.
Lemma count_mod n i k : i < n -> length (filter (fun r => r mod n =? i) (seq 0 (n * k))) = k.
Proof.
  intros L. induction k as [|k IH]; [rewrite Nat.mul_0_r; reflexivity|].
  replace (n * S k) with (n * k + n) by lia. rewrite seq_app, filter_app, app_length, IH. cbn [Nat.add].
  enough (G : forall c b, b <= n -> c = n - b -> length (filter (fun r => r mod n =? i) (seq (n * k + b) c)) = if b <=? i then 1 else 0).
  { specialize (G n 0 ltac:(lia) ltac:(lia)). rewrite Nat.add_0_r in G. rewrite G. cbn [Nat.leb]. lia. }
  induction c as [|c IHc]; intros b Lb Ec; cbn [seq filter].
  - destruct (Nat.leb_spec b i); [lia|reflexivity].
  - replace ((n * k + b) mod n) with b by (rewrite Nat.add_comm, Nat.mul_comm, Nat.mod_add by lia; symmetry; apply Nat.mod_small; lia).
    specialize (IHc (S b) ltac:(lia) ltac:(lia)). replace (n * k + S b) with (S (n * k + b)) in IHc by lia.
    destruct (Nat.eqb_spec b i) as [D|D]; cbn [length]; rewrite IHc; destruct (Nat.leb_spec b i), (Nat.leb_spec (S b) i); lia.
Qed.

Lemma increasing_le xs i j : increasing xs -> i <= j < length xs -> (nth i xs 0 <= nth j xs 0)%Q.
Proof. intros H L. destruct (Nat.eq_dec i j) as [->|D]; [apply Qle_refl|]. apply Qlt_le_weak, H. lia. Qed.
Lemma increasing_inj xs i j : increasing xs -> i < length xs -> j < length xs -> (nth i xs 0 == nth j xs 0)%Q -> i = j.
Proof.
  intros H Li Lj Q. destruct (Nat.lt_trichotomy i j) as [L|[L|L]]; [|auto|].
  - specialize (H i j ltac:(lia)). lra.
  - specialize (H j i ltac:(lia)). lra.
Qed.

Section Grid.
Context (xs ys : list Q) (gx gy : nat -> nat) (x0 y0 : list Q).
Context (Ix : increasing xs) (Iy : increasing ys) (G : on_grid xs ys gx gy x0 y0).
Let nx := length xs.
Let ny := length ys.
Let l := nx * ny.
Let rank p := gx p + nx * gy p.

Lemma rank_bound p : p < l -> rank p < l.
Proof. intros L. destruct G as (_ & _ & H & _). destruct (H p L) as (A & B & _). unfold rank, l in *. fold nx ny in A, B. nia. Qed.
Lemma rank_mod p : p < l -> rank p mod nx = gx p.
Proof.
  intros L. destruct G as (_ & _ & H & _). destruct (H p L) as (A & _). fold nx in A. unfold rank. rewrite Nat.mul_comm, Nat.mod_add by lia. apply Nat.mod_small. auto.
Qed.
Lemma rank_div p : p < l -> rank p / nx = gy p.
Proof.
  intros L. destruct G as (_ & _ & H & _). destruct (H p L) as (A & _). fold nx in A. unfold rank. rewrite Nat.mul_comm, Nat.div_add by lia. rewrite Nat.div_small by auto. lia.
Qed.
Lemma rank_inj p q : p < l -> q < l -> rank p = rank q -> p = q.
Proof.
  intros Lp Lq E. pose proof G as (_ & _ & _ & I). apply I; auto.
  - rewrite <- (rank_mod p), <- (rank_mod q) by auto. congruence.
  - rewrite <- (rank_div p), <- (rank_div q) by auto. congruence.
Qed.
Lemma every_point i j : i < nx -> j < ny -> exists p, p < l /\ gx p = i /\ gy p = j.
Proof.
  intros Li Lj. destruct (inj_onto rank l rank_bound rank_inj (i + nx * j)) as (p & Lp & Er); [unfold l; nia|].
  exists p. split; [exact Lp|]. rewrite <- (rank_mod p Lp), <- (rank_div p Lp), Er. split.
  - rewrite Nat.mul_comm, Nat.mod_add by lia. apply Nat.mod_small; auto.
  - rewrite Nat.mul_comm, Nat.div_add by lia. rewrite Nat.div_small by auto. lia.
Qed.
Lemma lx : length x0 = l. Proof. exact (proj1 G). Qed.
Lemma ly : length y0 = l. Proof. exact (proj1 (proj2 G)). Qed.
Lemma at_x p : p < l -> gx p < nx /\ (nth p x0 0 == nth (gx p) xs 0)%Q.
Proof. intros L. destruct G as (_ & _ & H & _). destruct (H p L) as (? & ? & ? & ?). auto. Qed.
Lemma at_y p : p < l -> gy p < ny /\ (nth p y0 0 == nth (gy p) ys 0)%Q.
Proof. intros L. destruct G as (_ & _ & H & _). destruct (H p L) as (? & ? & ? & ?). auto. Qed.

Context (Nx : 1 <= nx) (Ny : 1 <= ny).
Lemma min_x : (qmin x0 == nth 0 xs 0)%Q.
Proof.
  assert (D : x0 <> []) by (intros Q; pose proof lx as L; rewrite Q in L; cbn [length] in L; unfold l in L; nia).
  destruct (qmin_spec x0 D) as (I & M). apply Qle_antisym.
  - destruct (every_point 0 0) as (p & Lp & E1 & E2); [lia|lia|]. destruct (at_x p Lp) as (_ & Q). rewrite E1 in Q. rewrite <- Q. apply M, nth_In. rewrite lx; auto.
  - destruct (In_nth _ _ 0%Q I) as (p & Lp & Q). rewrite lx in Lp. rewrite <- Q. destruct (at_x p Lp) as (B & Q'). rewrite Q'. apply increasing_le; [auto|]. fold nx. lia.
Qed.
Lemma min_y : (qmin y0 == nth 0 ys 0)%Q.
Proof.
  assert (D : y0 <> []) by (intros Q; pose proof ly as L; rewrite Q in L; cbn [length] in L; unfold l in L; nia).
  destruct (qmin_spec y0 D) as (I & M). apply Qle_antisym.
  - destruct (every_point 0 0) as (p & Lp & E1 & E2); [lia|lia|]. destruct (at_y p Lp) as (_ & Q). rewrite E2 in Q. rewrite <- Q. apply M, nth_In. rewrite ly; auto.
  - destruct (In_nth _ _ 0%Q I) as (p & Lp & Q). rewrite ly in Lp. rewrite <- Q. destruct (at_y p Lp) as (B & Q'). rewrite Q'. apply increasing_le; [auto|]. fold ny. lia.
Qed.
Lemma shift_x p : p < l -> (nth p (shifted x0) 0 == nth (gx p) xs 0 - nth 0 xs 0)%Q.
Proof. intros L. rewrite shifted_nth by (rewrite lx; auto). rewrite min_x. destruct (at_x p L) as (_ & ->). reflexivity. Qed.
Lemma shift_y p : p < l -> (nth p (shifted y0) 0 == nth (gy p) ys 0 - nth 0 ys 0)%Q.
Proof. intros L. rewrite shifted_nth by (rewrite ly; auto). rewrite min_y. destruct (at_y p L) as (_ & ->). reflexivity. Qed.
Lemma max_x : (qmax (shifted x0) == nth (nx - 1) xs 0 - nth 0 xs 0)%Q.
Proof.
  assert (D : shifted x0 <> []) by (intros Q; pose proof lx as L; rewrite <- shifted_length, Q in L; cbn [length] in L; unfold l in L; nia).
  destruct (qmax_spec _ D) as (I & M). apply Qle_antisym.
  - destruct (In_nth _ _ 0%Q I) as (p & Lp & Q). rewrite shifted_length, lx in Lp. rewrite <- Q, (shift_x p Lp). destruct (at_x p Lp) as (B & _).
    pose proof (increasing_le xs (gx p) (nx - 1) Ix ltac:(fold nx; lia)). lra.
  - destruct (every_point (nx - 1) 0) as (p & Lp & E1 & E2); [lia|lia|]. rewrite <- E1, <- (shift_x p Lp). apply M, nth_In. rewrite shifted_length, lx; auto.
Qed.
(* the number of entries with the first x *)
Lemma count_x : length (filter (fun v => Qeq_bool v (nth 0 (shifted x0) 0%Q)) (shifted x0)) = ny.
Proof.
  assert (L0 : 0 < l) by (unfold l; nia). destruct (at_x 0 L0) as (B0 & _).
  assert (H : length (filter (fun v => Qeq_bool v (nth 0 (shifted x0) 0%Q)) (shifted x0)) = length (filter (fun r => r mod nx =? gx 0) (map rank (seq 0 l)))).
  { assert (K : shifted x0 = map (fun p => nth p (shifted x0) 0%Q) (seq 0 l)).
    { rewrite <- lx. rewrite <- shifted_length. clear. generalize (shifted x0) as z. intros z. induction z as [|v z IH]; [reflexivity|]. cbn [length seq map nth]. f_equal. rewrite <- seq_shift, map_map. exact IH. }
    assert (F : forall ps, (forall p, In p ps -> p < l) ->
      length (filter (fun v => Qeq_bool v (nth 0 (shifted x0) 0%Q)) (map (fun p => nth p (shifted x0) 0%Q) ps)) = length (filter (fun r => r mod nx =? gx 0) (map rank ps))).
    { induction ps as [|p ps IH]; intros Hp; [reflexivity|]. cbn [map filter]. rewrite rank_mod by (apply Hp; left; auto).
      assert (Lp : p < l) by (apply Hp; left; auto). replace (Qeq_bool (nth p (shifted x0) 0%Q) (nth 0 (shifted x0) 0%Q)) with (gx p =? gx 0).
      - destruct (gx p =? gx 0); cbn [length]; rewrite IH by (intros q Q; apply Hp; right; auto); reflexivity.
      - destruct (at_x p Lp) as (Bp & _). destruct (Nat.eqb_spec (gx p) (gx 0)) as [E|E]; symmetry.
        + apply Qeq_bool_iff. rewrite (shift_x p Lp), (shift_x 0 L0), E. reflexivity.
        + apply not_true_is_false. intros Q. apply Qeq_bool_iff in Q. rewrite (shift_x p Lp), (shift_x 0 L0) in Q. apply E. apply (increasing_inj xs); auto. lra. }
    specialize (F (seq 0 l)). rewrite <- K in F. apply F. intros p Ip. apply in_seq in Ip. lia. }
  rewrite H. rewrite (Permutation_length (Permutation_filter_ _ _ _ (inj_perm rank l rank_bound rank_inj))). unfold l. apply count_mod. auto.
Qed.
Lemma min_nz : 2 <= ny -> let nz := filter (fun v => negb (Qeq_bool v 0)) (shifted y0) in
  nz <> [] /\ (qmin nz == nth 1 ys 0 - nth 0 ys 0)%Q.
Proof.
  intros Ny2. cbv zeta. set (nz := filter _ _).
  assert (I1 : forall p, p < l -> gy p <> 0 -> In (nth p (shifted y0) 0%Q) nz).
  { intros p Lp Np. apply filter_In. split; [apply nth_In; rewrite shifted_length, ly; auto|]. apply negb_true_iff, not_true_is_false. intros Q. apply Qeq_bool_iff in Q.
    rewrite (shift_y p Lp) in Q. apply Np. destruct (at_y p Lp) as (B & _). apply (increasing_inj ys); auto; lra. }
  destruct (every_point 0 1) as (p1 & L1 & E1 & E2); [lia|lia|].
  assert (D : nz <> []) by (intros Q; specialize (I1 p1 L1 ltac:(lia)); rewrite Q in I1; exact I1).
  split; [exact D|]. destruct (qmin_spec nz D) as (I & M). apply Qle_antisym.
  - rewrite <- E2 at 1. rewrite <- (shift_y p1 L1). apply M, I1; [auto|lia].
  - apply filter_In in I. destruct I as (I & Z). destruct (In_nth _ _ 0%Q I) as (p & Lp & Q). rewrite shifted_length, ly in Lp. rewrite <- Q in Z |- *.
    apply negb_true_iff in Z. assert (Np : gy p <> 0).
    { intros Z'. rewrite (proj2 (Qeq_bool_iff _ _)) in Z; [discriminate|]. rewrite (shift_y p Lp), Z'. lra. }
    rewrite (shift_y p Lp). destruct (at_y p Lp) as (B & _). pose proof (increasing_le ys 1 (gy p) Iy ltac:(fold ny; lia)). lra.
Qed.

Lemma grid_order : 2 <= nx -> 2 <= ny -> even ys ->
  exists order, order_2d (shifted x0) (shifted y0) = Ok order /\ length order = l /\ (forall p, In p order -> p < l) /\
    forall p, p < l -> nth (gx p + nx * gy p) order 0 = p.
Proof.
  intros Nx2 Ny2 Ev. destruct (min_nz Ny2) as (D & Mz). unfold order_2d.
  set (X := (nth (nx - 1) xs 0 - nth 0 xs 0)%Q). set (m := (nth 1 ys 0 - nth 0 ys 0)%Q). fold m in Mz.
  assert (PX : (0 < X)%Q) by (unfold X; pose proof (Ix 0 (nx - 1) ltac:(fold nx; lia)); lra).
  assert (Pm : (0 < m)%Q) by (unfold m; pose proof (Iy 0 1 ltac:(fold ny; lia)); lra).
  destruct (filter _ (shifted y0)) as [|z zs] eqn:Ez; [congruence|]. cbv zeta. pose proof max_x as Mx. fold X in Mx.
  destruct (Qeq_bool (qmax (shifted x0)) 0) eqn:Q0; [apply Qeq_bool_iff in Q0; exfalso; lra|].
  set (key := fun p => (nth p (shifted x0) 0 / qmax (shifted x0) + 2 * nth p (shifted y0) 0 / qmin (z :: zs))%Q).
  rewrite shifted_length, lx.
  set (le := fun p q => Qle_bool (key p) (key q)). exists (sort_by le l). split; [reflexivity|]. split; [apply sort_length|]. split; [intros p; apply sort_in|].
  assert (Kp : forall p, p < l -> (key p == (nth (gx p) xs 0 - nth 0 xs 0) / X + 2 * (nth (gy p) ys 0 - nth 0 ys 0) / m)%Q).
  { intros p Lp. unfold key. rewrite (shift_x p Lp), (shift_y p Lp), Mx, Mz. reflexivity. }
  assert (U : forall i, i < nx -> (0 <= (nth i xs 0 - nth 0 xs 0) / X <= 1)%Q).
  { intros i Li. pose proof (increasing_le xs 0 i Ix ltac:(fold nx; lia)). pose proof (increasing_le xs i (nx - 1) Ix ltac:(fold nx; lia)). split.
    - apply Qle_shift_div_l; [auto|]. lra.
    - apply Qle_shift_div_r; [auto|]. unfold X. lra. }
  assert (Kl : forall p q, p < l -> q < l -> rank p < rank q -> (key p < key q)%Q).
  { intros p q Lp Lq Lr. rewrite (Kp p Lp), (Kp q Lq). destruct (at_x p Lp) as (Bp & _), (at_x q Lq) as (Bq & _), (at_y p Lp) as (Cp & _), (at_y q Lq) as (Cq & _).
    unfold rank in Lr. destruct (Nat.eq_dec (gy p) (gy q)) as [Ey|Ey].
    - rewrite Ey. assert (Lx : gx p < gx q) by (rewrite Ey in Lr; lia). pose proof (Ix (gx p) (gx q) ltac:(fold nx; lia)) as H.
      assert ((nth (gx p) xs 0 - nth 0 xs 0) / X < (nth (gx q) xs 0 - nth 0 xs 0) / X)%Q; [|lra].
      apply Qmult_lt_r; [apply Qinv_lt_0_compat; auto|]. lra.
    - assert (Ly : gy p < gy q) by nia. pose proof (U _ Bp) as Up. pose proof (U _ Bq) as Uq.
      pose proof (Ev (gy p) ltac:(fold ny; lia)) as Ev'. fold m in Ev'. pose proof (increasing_le ys (S (gy p)) (gy q) Iy ltac:(fold ny; lia)) as H.
      assert (1 < 2 * (nth (gy q) ys 0 - nth 0 ys 0) / m - 2 * (nth (gy p) ys 0 - nth 0 ys 0) / m)%Q; [|lra].
      setoid_replace (2 * (nth (gy q) ys 0 - nth 0 ys 0) / m - 2 * (nth (gy p) ys 0 - nth 0 ys 0) / m)%Q with ((2 * (nth (gy q) ys 0 - nth (gy p) ys 0)) / m)%Q by (field; lra).
      apply Qlt_shift_div_l; [auto|]. lra. }
  assert (Tot : forall a b, le a b = true \/ le b a = true).
  { intros a b. unfold le. destruct (Qlt_le_dec (key a) (key b)); [left|right]; apply Qle_bool_iff; lra. }
  assert (Tr : forall a b c, le a b = true -> le b c = true -> le a c = true).
  { intros a b c. unfold le. rewrite !Qle_bool_iff. intros. lra. }
  pose proof (sorted_nth _ _ 0 (sort_placed_from le Tot Tr 0 l)) as St. fold (sort_by le l) in St. rewrite sort_length in St.
  assert (Bo : forall a, a < l -> nth a (sort_by le l) 0 < l) by (intros a La; apply (sort_in le l), nth_In; rewrite sort_length; auto).
  assert (Mo : forall a b, a < b < l -> rank (nth a (sort_by le l) 0) < rank (nth b (sort_by le l) 0)).
  { intros a b L. destruct (St a b L) as (S1 & S2). apply Qle_bool_iff in S1.
    destruct (Nat.lt_trichotomy (rank (nth a (sort_by le l) 0)) (rank (nth b (sort_by le l) 0))) as [H|[H|H]]; [exact H| |].
    - apply rank_inj in H; [|apply Bo; lia|apply Bo; lia]. rewrite H in S2. specialize (S2 (proj2 (Qle_bool_iff _ _) (Qle_refl _))). lia.
    - apply Kl in H; [|apply Bo; lia|apply Bo; lia]. exfalso. lra. }
  intros p Lp. pose proof (mono_id (fun a => rank (nth a (sort_by le l) 0)) l (fun a La => rank_bound _ (Bo a La)) Mo (rank p) (rank_bound p Lp)) as R. cbv beta in R.
  apply rank_inj in R; [exact R|apply Bo, rank_bound, Lp|exact Lp].
Qed.

End Grid.
