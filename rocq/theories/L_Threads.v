(* Lemmas for C77. *)
From Verif Require Import Base M_RefCount S_RefCount L_RefCount M_Threads S_Threads.

Lemma ok_pair {X Y} (x x' : X) (y y' : Y) : Ok (x, y) = Ok (x', y') -> x = x' /\ y = y'.
Proof. intros H. injection H. auto. Qed.
Lemma ok_one {X} (x x' : X) : Ok x = Ok x' -> x = x'.
Proof. intros H. injection H. auto. Qed.

Section Th.
Context {A : Type} (i : nat) (a0 : list (option (block A))) (xs : list (obs A)) (Q : list (option (block A)) -> thread A -> Prop).
Implicit Types ai : list (option (block A)).
Implicit Types a : addr.

(* What a thread does depends only on the shared blocks and on its own arena:
   in n steps it ends, having observed xs. *)
Inductive Alone : nat -> list (option (block A)) -> thread A -> Prop :=
| A_done ai t : finished t -> th_obs t = xs -> Q ai t -> Alone 0 ai t
| A_step n ai t ai' t' :
    (forall m, nth_error m 0 = Some a0 -> nth_error m (S i) = Some ai ->
       thread_step i m t = Ok (upd m (S i) ai', t')) ->
    (exists ys, xs = th_obs t ++ ys) ->
    Alone n ai' t' -> Alone (S n) ai t.

Definition blk ai a : option (block A) :=
  match a with
  | (0, k) => match nth_error a0 k with Some b => b | None => None end
  | (S j, k) => if j =? i then match nth_error ai k with Some b => b | None => None end else None
  end.

Lemma blk_at m ai a b : nth_error m 0 = Some a0 -> nth_error m (S i) = Some ai ->
  blk ai a = Some b -> block_at m a = Ok b.
Proof.
  destruct a as [[|j] k]; unfold blk, block_at; cbn [fst snd]; intros H0 Hi Hb.
  - rewrite H0. destruct (nth_error a0 k) as [[b'|]|]; try discriminate. congruence.
  - destruct (Nat.eqb_spec j i) as [->|]; [|discriminate].
    rewrite Hi. destruct (nth_error ai k) as [[b'|]|]; try discriminate. congruence.
Qed.

Lemma upd_nop {X} (l : list X) k x : nth_error l k = Some x -> upd l k x = l.
Proof. apply upd_same. Qed.

Definition run_at p ai n vs td ob := Alone n ai (mkTh vs (Some p) td ob).

Lemma prefix_obs n ai t : Alone n ai t -> exists ys, xs = th_obs t ++ ys.
Proof. destruct 1 as [? ? ? <- _|]; auto. exists []. rewrite app_nil_r. reflexivity. Qed.

Ltac acc := intros H0 Hi; unfold thread_step; cbn [th_cur access].

Lemma a_loadrefs ai a b k n vs td ob : blk ai a = Some b ->
  run_at (k (brefs b)) ai n vs td ob -> run_at (LoadRefs a k) ai (S n) vs td ob.
Proof.
  intros Hb HA. eapply A_step; [|exact (prefix_obs _ _ _ HA)|exact HA].
  intros m; acc. rewrite (blk_at m ai a b); auto. cbn [bind th_vars th_todo th_obs].
  rewrite upd_nop; auto.
Qed.

Lemma a_loadsize ai a b k n vs td ob : blk ai a = Some b ->
  run_at (k (length (bdata b))) ai n vs td ob -> run_at (LoadSize a k) ai (S n) vs td ob.
Proof.
  intros Hb HA. eapply A_step; [|exact (prefix_obs _ _ _ HA)|exact HA].
  intros m; acc. rewrite (blk_at m ai a b); auto. cbn [bind th_vars th_todo th_obs].
  rewrite upd_nop; auto.
Qed.

Lemma a_loadelt ai a b j v k n vs td ob : blk ai a = Some b -> nth_error (bdata b) j = Some v ->
  run_at (k v) ai n vs td ob -> run_at (LoadElt a j k) ai (S n) vs td ob.
Proof.
  intros Hb Hv HA. eapply A_step; [|exact (prefix_obs _ _ _ HA)|exact HA].
  intros m; acc. rewrite (blk_at m ai a b); auto. cbn [bind].
  rewrite (rd_ok _ _ _ Hv). cbn [bind th_vars th_todo th_obs]. rewrite upd_nop; auto.
Qed.

Lemma set_own m ai p o : nth_error m (S i) = Some ai ->
  set_block m (S i, p) o = upd m (S i) (upd ai p o).
Proof. intros H. unfold set_block. cbn [fst snd]. rewrite H. reflexivity. Qed.

Lemma a_storerefs ai p b r k n vs td ob : blk ai (S i, p) = Some b ->
  run_at k (upd ai p (Some (mkB (bdata b) r))) n vs td ob ->
  run_at (StoreRefs (S i, p) r k) ai (S n) vs td ob.
Proof.
  intros Hb HA. eapply A_step; [|exact (prefix_obs _ _ _ HA)|exact HA].
  intros m; acc. rewrite (blk_at m ai _ b); auto. cbn [bind th_vars th_todo th_obs].
  rewrite (set_own m ai); auto.
Qed.

Lemma a_storeelt ai p b j v k n vs td ob : blk ai (S i, p) = Some b -> j < length (bdata b) ->
  run_at k (upd ai p (Some (mkB (upd (bdata b) j v) (brefs b)))) n vs td ob ->
  run_at (StoreElt (S i, p) j v k) ai (S n) vs td ob.
Proof.
  intros Hb Hj HA. eapply A_step; [|exact (prefix_obs _ _ _ HA)|exact HA].
  intros m; acc. rewrite (blk_at m ai _ b); auto. cbn [bind]. rewrite wr_ok by auto.
  cbn [bind th_vars th_todo th_obs]. rewrite (set_own m ai); auto.
Qed.

Lemma a_delete ai p b k n vs td ob : blk ai (S i, p) = Some b ->
  run_at k (upd ai p None) n vs td ob -> run_at (Delete (S i, p) k) ai (S n) vs td ob.
Proof.
  intros Hb HA. eapply A_step; [|exact (prefix_obs _ _ _ HA)|exact HA].
  intros m; acc. rewrite (blk_at m ai _ b); auto. cbn [bind th_vars th_todo th_obs].
  rewrite (set_own m ai); auto.
Qed.

Lemma a_alloc ai l k n vs td ob :
  run_at (k (S i, length ai)) (ai ++ [Some (mkB l 1)]) n vs td ob ->
  run_at (Alloc l k) ai (S n) vs td ob.
Proof.
  intros HA. eapply A_step; [|exact (prefix_obs _ _ _ HA)|exact HA].
  intros m; acc. rewrite Hi. reflexivity.
Qed.

Lemma a_ret ai vs' x n vs td ob :
  Alone n ai (mkTh vs' None td (ob ++ [x])) -> run_at (Ret (vs', x)) ai (S n) vs td ob.
Proof.
  intros HA. eapply A_step; [| |exact HA].
  - intros m; acc. rewrite upd_nop; auto.
  - destruct (prefix_obs _ _ _ HA) as [ys E]. cbn in E. rewrite <- app_assoc in E.
    eexists. exact E.
Qed.

Lemma a_start ai o n vs td ob :
  run_at (op_prog vs o) ai n vs td ob -> Alone (S n) ai (mkTh vs None (o :: td) ob).
Proof.
  intros HA. eapply A_step; [|exact (prefix_obs _ _ _ HA)|exact HA].
  intros m H0 Hi; unfold thread_step. cbn. rewrite upd_nop; auto.
Qed.

(* ---- the blocks of a thread and the shared ones as a state of M_RefCount ---- *)
Definition eb (o : option (block A)) : option (pointer A) :=
  option_map (fun b => mkP (Own (bdata b)) (brefs b) true) o.
Definition ea a : nat := match a with (0, k) => k | (S _, k) => length a0 + k end.
Definition emb ai (vs : tvars) : state A :=
  mkS (map eb a0 ++ map eb ai) [] (map (option_map ea) vs).

Definition inw a : Prop := (fst a = 0 /\ snd a < length a0) \/ fst a = S i.

Lemma ea_inj_own k k' : ea (S i, k) = ea (S i, k') -> k = k'.
Proof. unfold ea. lia. Qed.

Lemma heap_ea ai vs a : inw a ->
  nth_error (heap (emb ai vs)) (ea a) =
  match a with (0, k) => option_map eb (nth_error a0 k) | (S _, k) => option_map eb (nth_error ai k) end.
Proof.
  clear xs Q.
  intros [[H1 H2]|H1]; destruct a as [[|j] k]; cbn [fst snd] in *; try discriminate; unfold emb, ea; cbn [heap].
  - rewrite nth_error_app1 by (rewrite map_length; auto). apply nth_error_map.
  - rewrite nth_error_app2 by (rewrite map_length; lia). rewrite map_length.
    replace (length a0 + k - length a0) with k by lia. apply nth_error_map.
Qed.

Lemma get_emb ai vs a p : inw a -> get (emb ai vs) (ea a) = Ok p ->
  exists b, blk ai a = Some b /\ p = mkP (Own (bdata b)) (brefs b) true.
Proof.
  intros Ha H. apply get_inv in H. rewrite heap_ea in H by auto.
  destruct Ha as [[H1 H2]|H1]; destruct a as [[|j] k]; cbn [fst snd] in *; try discriminate; unfold blk.
  - destruct (nth_error a0 k) as [[b|]|]; cbn in H; try discriminate. exists b. split; congruence.
  - injection H1 as ->. rewrite Nat.eqb_refl.
    destruct (nth_error ai k) as [[b|]|]; cbn in H; try discriminate. exists b. split; congruence.
Qed.

Lemma upd_app2 {X} (l1 l2 : list X) k x : upd (l1 ++ l2) (length l1 + k) x = l1 ++ upd l2 k x.
Proof. induction l1; cbn; congruence. Qed.

Lemma put_emb ai vs k o : put_heap (emb ai vs) (ea (S i, k)) (eb o) = emb (upd ai k o) vs.
Proof.
  unfold put_heap, emb, ea. cbn [heap ext vars]. f_equal.
  replace (length a0) with (length (map eb a0)) by apply map_length.
  rewrite upd_app2, map_upd. reflexivity.
Qed.

Lemma del_emb ai vs k l r : delete_pointer (emb ai vs) (ea (S i, k)) (mkP (Own l) r true) = emb (upd ai k None) vs.
Proof. rewrite <- put_emb. reflexivity. Qed.

Lemma new_emb ai vs l : new_pointer (emb ai vs) (Own l) true =
  (emb (ai ++ [Some (mkB l 1)]) vs, ea (S i, length ai)).
Proof.
  unfold new_pointer, emb, ea. cbn [heap ext vars]. f_equal.
  - f_equal. rewrite map_app, app_assoc. reflexivity.
  - rewrite app_length, !map_length. reflexivity.
Qed.

Lemma setvar_emb ai vs h o : set_var (emb ai vs) h (option_map ea o) = emb ai (upd vs h o).
Proof. unfold set_var, emb. cbn [heap ext vars]. rewrite map_upd. reflexivity. Qed.
Lemma setvar_some ai vs h a : set_var (emb ai vs) h (Some (ea a)) = emb ai (upd vs h (Some a)).
Proof. exact (setvar_emb ai vs h (Some a)). Qed.
Lemma setvar_none ai vs h : set_var (emb ai vs) h None = emb ai (upd vs h None).
Proof. exact (setvar_emb ai vs h None). Qed.
Lemma newvar_emb ai vs a : new_var (emb ai vs) (ea a) = emb ai (vs ++ [Some a]).
Proof. unfold new_var, emb. cbn [heap ext vars]. rewrite map_app. reflexivity. Qed.

(* the first [length a0] variables are the shared ones, the others have blocks
   of the thread *)
Definition wfv (vs : tvars) : Prop :=
  length a0 <= length vs /\
  forall h a, nth_error vs h = Some (Some a) ->
    (h < length a0 -> fst a = 0 /\ snd a < length a0) /\ (length a0 <= h -> fst a = S i).

Lemma wfv_inw vs h a : wfv vs -> nth_error vs h = Some (Some a) -> inw a.
Proof.
  intros [_ W] H. destruct (W h a H) as [W1 W2].
  destruct (Nat.lt_ge_cases h (length a0)); [left|right]; auto.
Qed.
Lemma wfv_own vs h a : wfv vs -> length a0 <= h -> nth_error vs h = Some (Some a) ->
  exists k, a = (S i, k).
Proof. intros [_ W] Hh H. destruct (W h a H) as [_ W2]. destruct a as [j k]. exists k. rewrite <- W2; auto. Qed.
Lemma wfv_app vs k : wfv vs -> wfv (vs ++ [Some (S i, k)]).
Proof.
  intros [W0 W]. split; [rewrite app_length; lia|]. intros h a H.
  destruct (Nat.lt_ge_cases h (length vs)).
  - rewrite nth_error_app1 in H by auto. auto.
  - rewrite nth_error_app2 in H by auto. destruct (h - length vs) as [|[|q]]; cbn in H; try discriminate.
    injection H as <-. split; intros; [lia|reflexivity].
Qed.
Lemma wfv_upd vs h o : wfv vs -> length a0 <= h -> (forall a, o = Some a -> fst a = S i) -> wfv (upd vs h o).
Proof.
  intros [W0 W] Hh Ho. split; [rewrite length_upd; lia|]. intros g a H.
  rewrite nth_error_upd in H. destruct ((g =? h) && (h <? length vs)) eqn:E; [|auto].
  apply andb_true_iff in E as [E _]. apply Nat.eqb_eq in E as ->. injection H as ->.
  split; intros; [lia|auto].
Qed.

Lemma var_emb ai vs h n : var (emb ai vs) h = Ok n -> exists a, nth_error vs h = Some (Some a) /\ n = ea a.
Proof.
  intros H. apply var_inv in H. cbn [vars emb] in H. rewrite nth_error_map in H.
  destruct (nth_error vs h) as [[a|]|]; cbn in H; try discriminate. exists a. split; congruence.
Qed.

Lemma blk_own ai k b : blk ai (S i, k) = Some b -> nth_error ai k = Some (Some b).
Proof. unfold blk. rewrite Nat.eqb_refl. destruct (nth_error ai k); congruence. Qed.
Lemma own_blk ai k b : nth_error ai k = Some (Some b) -> blk ai (S i, k) = Some b.
Proof. unfold blk. rewrite Nat.eqb_refl. intros ->. reflexivity. Qed.
Lemma blk_upd ai k b b' : blk ai (S i, k) = Some b -> blk (upd ai k (Some b')) (S i, k) = Some b'.
Proof.
  intros H. apply blk_own in H. apply own_blk. apply nth_error_upd_eq. apply nth_error_Some. congruence.
Qed.

(* reference and dereference, alone *)
Lemma reference_alone ai vs0 k s' r (p : prog A (tvars * obs A)) :
  reference (emb ai vs0) (ea (S i, k)) = Ok (s', r) ->
  exists ai', s' = emb ai' vs0 /\ r = ea (S i, k) /\
    forall n vs td ob, run_at p ai' n vs td ob -> run_at (reference_ (S i, k) p) ai (S (S n)) vs td ob.
Proof.
  unfold reference. intros H. apply bind_ok in H as (q & G & H). apply ok_pair in H as [<- <-].
  apply get_emb in G; [|right; reflexivity]. destruct G as (b & Hb & ->).
  eexists. split; [|split; [reflexivity|]].
  - apply (put_emb ai vs0 k (Some (mkB (bdata b) (brefs b + 1)))).
  - intros n vs td ob HA. unfold reference_. eapply a_loadrefs; [exact Hb|].
    eapply a_storerefs; [exact Hb|]. exact HA.
Qed.

Lemma dereference_alone ai vs0 k s' (p : prog A (tvars * obs A)) :
  dereference (emb ai vs0) (ea (S i, k)) = Ok s' ->
  exists ai', s' = emb ai' vs0 /\ length ai' = length ai /\
    (forall k', k' <> k -> nth_error ai' k' = nth_error ai k') /\
    forall n vs td ob, run_at p ai' n vs td ob ->
      exists n', run_at (dereference_ (S i, k) p) ai n' vs td ob.
Proof.
  unfold dereference. intros H. apply bind_ok in H as (q & G & H).
  apply get_emb in G; [|right; reflexivity]. destruct G as (b & Hb & ->). cbn [prefs pbuf powned] in H.
  destruct (brefs b - 1 <=? 0)%Z eqn:E.
  - assert (E' : s' = emb (upd ai k None) vs0) by (injection H; intros <-; apply del_emb).
    subst s'. eexists. split; [reflexivity|]. split; [apply length_upd|].
    split; [intros; apply nth_error_upd_ne; auto|].
    intros n vs td ob HA. eexists. unfold dereference_. eapply a_loadrefs; [exact Hb|].
    eapply a_storerefs; [exact Hb|]. rewrite E. eapply a_delete; [eapply blk_upd; exact Hb|].
    rewrite upd_upd. exact HA.
  - apply ok_one in H as <-. eexists. split; [apply (put_emb ai vs0 k (Some (mkB (bdata b) (brefs b - 1))))|].
    split; [apply length_upd|]. split; [intros; apply nth_error_upd_ne; auto|].
    intros n vs td ob HA. eexists. unfold dereference_. eapply a_loadrefs; [exact Hb|].
    eapply a_storerefs; [exact Hb|]. rewrite E. exact HA.
Qed.

Lemma copy_alone ai a b (p : list A -> prog A (tvars * obs A)) n vs td ob :
  blk ai a = Some b ->
  forall r j acc, length (bdata b) = j + r -> acc = firstn j (bdata b) ->
  run_at (p (bdata b)) ai n vs td ob -> run_at (copy_elts a r j acc p) ai (r + n) vs td ob.
Proof.
  intros Hb. induction r as [|r IH]; intros j acc Hl -> HA; cbn [copy_elts plus].
  - rewrite firstn_all2 by lia. exact HA.
  - destruct (nth_error_lt (bdata b) j) as [v Hv]; [lia|].
    eapply a_loadelt; [exact Hb|exact Hv|]. apply IH; [lia| |exact HA].
    clear - Hv. revert j Hv. induction (bdata b) as [|x l IH]; intros [|j] Hv; cbn in *; try discriminate.
    + congruence.
    + f_equal. apply IH. exact Hv.
Qed.

Lemma clone_alone ai a b (p : addr -> prog A (tvars * obs A)) n vs td ob :
  blk ai a = Some b ->
  run_at (p (S i, length ai)) (ai ++ [Some (mkB (bdata b) 1)]) n vs td ob ->
  run_at (clone_ a p) ai (S (length (bdata b) + S n)) vs td ob.
Proof.
  intros Hb HA. unfold clone_. eapply a_loadsize; [exact Hb|].
  apply (copy_alone ai a b); [exact Hb|reflexivity|reflexivity|]. apply a_alloc. exact HA.
Qed.

Lemma with_var_emb {X} vs h a (k : addr -> prog A X) : nth_error vs h = Some (Some a) -> with_var vs h k = k a.
Proof. unfold with_var. intros ->. reflexivity. Qed.

Lemma op_alone ai vs o s' x :
  wfv vs -> reads_only (length a0) o -> step (emb ai vs) o = Ok (s', x) ->
  exists ai' vs', s' = emb ai' vs' /\ wfv vs' /\
    forall n td ob, Alone n ai' (mkTh vs' None td (ob ++ [x])) ->
      exists n', Alone n' ai (mkTh vs None (o :: td) ob).
Proof.
  intros W RO H. destruct o as [l| |f n|h|h g|h j v|h j|h|h l|h|f j v]; cbn [reads_only] in RO; try contradiction; cbn [step] in H.
  - rewrite new_emb in H. apply ok_pair in H as [<- <-]. rewrite newvar_emb. do 2 eexists. split; [reflexivity|].
    split; [apply wfv_app; auto|]. intros n td ob HA. eexists. apply a_start. cbn [op_prog].
    apply a_alloc. apply a_ret. exact HA.
  - rewrite new_emb in H. apply ok_pair in H as [<- <-]. rewrite newvar_emb. do 2 eexists. split; [reflexivity|].
    split; [apply wfv_app; auto|]. intros n td ob HA. eexists. apply a_start. cbn [op_prog].
    apply a_alloc. apply a_ret. exact HA.
  - apply bind_ok in H as (q & V & H). apply var_emb in V as (a & V & ->).
    destruct (wfv_own vs h a W RO V) as [k ->].
    apply bind_ok in H as ([s1 r] & R & H). apply ok_pair in H as [<- <-].
    apply (reference_alone ai vs k s1 r (Ret (vs ++ [Some (S i, k)], ONone))) in R as (ai' & -> & -> & HR).
    rewrite newvar_emb. do 2 eexists. split; [reflexivity|]. split; [apply wfv_app; auto|].
    intros n td ob HA. eexists. apply a_start. cbn [op_prog]. rewrite (with_var_emb vs h _ _ V).
    apply HR. apply a_ret. exact HA.
  - destruct RO as [Rh Rg]. apply bind_ok in H as (q & V & H). apply var_emb in V as (a & V & ->).
    destruct (wfv_own vs h a W Rh V) as [k ->].
    apply bind_ok in H as (q & V' & H). apply var_emb in V' as (a & V' & ->).
    destruct (wfv_own vs g a W Rg V') as [k' ->].
    destruct (Nat.eqb_spec (ea (S i, k')) (ea (S i, k))) as [E|E].
    + apply ok_pair in H as [<- <-]. exists ai, vs. split; [reflexivity|]. split; [auto|].
      intros n td ob HA. eexists. apply a_start. cbn [op_prog].
      rewrite (with_var_emb vs h _ _ V), (with_var_emb vs g _ _ V').
      apply ea_inj_own in E as ->. unfold addr_eqb. rewrite !Nat.eqb_refl. cbn [andb].
      apply a_ret. exact HA.
    + apply bind_ok in H as (s1 & D & H). apply bind_ok in H as ([s2 r] & R & H). apply ok_pair in H as [<- <-].
      apply (dereference_alone ai vs k s1 (reference_ (S i, k') (Ret (upd vs h (Some (S i, k')), ONone)))) in D
        as (ai1 & -> & _ & _ & HD).
      apply (reference_alone ai1 vs k' s2 r (Ret (upd vs h (Some (S i, k')), ONone))) in R as (ai2 & -> & -> & HR).
      rewrite setvar_some. do 2 eexists. split; [reflexivity|].
      split; [apply wfv_upd; auto; intros ? [= <-]; reflexivity|].
      intros n td ob HA. edestruct HD as [n' HD']; [apply HR; apply a_ret; exact HA|].
      eexists. apply a_start. cbn [op_prog].
      rewrite (with_var_emb vs h _ _ V), (with_var_emb vs g _ _ V').
      replace (addr_eqb (S i, k') (S i, k)) with false; [exact HD'|].
      unfold addr_eqb. cbn [fst snd]. rewrite Nat.eqb_refl. cbn [andb]. symmetry. apply Nat.eqb_neq.
      intros ->. apply E. reflexivity.
  - apply bind_ok in H as (s1 & P & H). unfold appropriate in P.
    apply bind_ok in P as (q & V & P). apply var_emb in V as (a & V & ->).
    destruct (wfv_own vs h a W RO V) as [k ->].
    apply bind_ok in P as (pp & G & P). assert (G' := G).
    apply get_emb in G; [|right; reflexivity]. destruct G as (b & Hb & ->). cbn [prefs] in P.
    destruct (1 <? brefs b)%Z eqn:E1.
    + apply bind_ok in P as ([s2 r] & C & P). unfold clone in C. rewrite G' in C. cbn in C.
      rewrite new_emb in C. apply ok_pair in C as [<- <-].
      apply bind_ok in P as (s3 & D & P). apply ok_one in P as <-.
      apply (dereference_alone _ vs k s3 (StoreElt (S i, length ai) j v (Ret (upd vs h (Some (S i, length ai)), ONone)))) in D
        as (ai1 & -> & Hl & Hk & HD).
      rewrite setvar_some in H.
      apply bind_ok in H as (q & V2 & H). apply var_emb in V2 as (a & V2 & ->).
      assert (Hh : h < length vs) by (apply nth_error_Some; congruence).
      rewrite nth_error_upd_eq in V2 by auto. injection V2 as <-.
      apply bind_ok in H as (s4 & St & H). apply ok_pair in H as [<- <-].
      unfold store in St. apply bind_ok in St as (pp & G2 & St).
      apply get_emb in G2; [|right; reflexivity]. destruct G2 as (b2 & Hb2 & ->). cbn [pbuf prefs powned] in St.
      apply bind_ok in St as (l' & Wr & St). apply ok_one in St as <-.
      unfold wr in Wr. destruct (Nat.ltb_spec j (length (bdata b2))) as [Hj|]; [|discriminate].
      injection Wr as <-.
      do 2 eexists. split; [apply (put_emb ai1 (upd vs h (Some (S i, length ai))) (length ai) (Some (mkB (upd (bdata b2) j v) (brefs b2))))|].
      split; [apply wfv_upd; auto; intros ? [= <-]; reflexivity|].
      intros n td ob HA. edestruct HD as [n' HD'].
      { eapply a_storeelt; [exact Hb2|exact Hj|]. apply a_ret. exact HA. }
      eexists. apply a_start. cbn [op_prog]. rewrite (with_var_emb vs h _ _ V).
      eapply a_loadrefs; [exact Hb|]. rewrite E1.
      eapply clone_alone; [exact Hb|]. exact HD'.
    + apply ok_one in P as <-. apply bind_ok in H as (q & V2 & H). apply var_emb in V2 as (a & V2 & ->).
      rewrite V in V2. injection V2 as <-.
      apply bind_ok in H as (s4 & St & H). apply ok_pair in H as [<- <-].
      unfold store in St. rewrite G' in St. cbn [bind pbuf prefs powned] in St.
      apply bind_ok in St as (l' & Wr & St). apply ok_one in St as <-.
      unfold wr in Wr. destruct (Nat.ltb_spec j (length (bdata b))) as [Hj|]; [|discriminate].
      injection Wr as <-.
      do 2 eexists. split; [apply (put_emb ai vs k (Some (mkB (upd (bdata b) j v) (brefs b))))|].
      split; [auto|].
      intros n td ob HA. eexists. apply a_start. cbn [op_prog]. rewrite (with_var_emb vs h _ _ V).
      eapply a_loadrefs; [exact Hb|]. rewrite E1.
      eapply a_storeelt; [exact Hb|exact Hj|]. apply a_ret. exact HA.
  - apply bind_ok in H as (q & V & H). apply var_emb in V as (a & V & ->).
    apply bind_ok in H as (pp & G & H).
    apply get_emb in G; [|eapply wfv_inw; eauto]. destruct G as (b & Hb & ->). cbn in H.
    apply bind_ok in H as (w & R & H). apply ok_pair in H as [<- <-].
    exists ai, vs. split; [reflexivity|]. split; [auto|].
    intros n td ob HA. eexists. apply a_start. cbn [op_prog]. rewrite (with_var_emb vs h _ _ V).
    eapply a_loadelt; [exact Hb| |apply a_ret; exact HA].
    unfold rd in R. destruct (nth_error (bdata b) j); congruence.
  - apply bind_ok in H as (q & V & H). apply var_emb in V as (a & V & ->).
    apply bind_ok in H as (pp & G & H).
    apply get_emb in G; [|eapply wfv_inw; eauto]. destruct G as (b & Hb & ->). cbn in H.
    apply ok_pair in H as [<- <-].
    exists ai, vs. split; [reflexivity|]. split; [auto|].
    intros n td ob HA. eexists. apply a_start. cbn [op_prog]. rewrite (with_var_emb vs h _ _ V).
    eapply a_loadsize; [exact Hb|apply a_ret; exact HA].
  - apply bind_ok in H as (q & V & H). apply var_emb in V as (a & V & ->).
    destruct (wfv_own vs h a W RO V) as [k ->].
    apply bind_ok in H as (s1 & D & H).
    apply (dereference_alone ai vs k s1 (Alloc l (fun b => Ret (upd vs h (Some b), ONone)))) in D as (ai1 & -> & _ & _ & HD).
    rewrite new_emb in H. apply ok_pair in H as [<- <-]. rewrite setvar_some.
    do 2 eexists. split; [reflexivity|]. split; [apply wfv_upd; auto; intros ? [= <-]; reflexivity|].
    intros n td ob HA. edestruct HD as [n' HD']; [apply a_alloc; apply a_ret; exact HA|].
    eexists. apply a_start. cbn [op_prog]. rewrite (with_var_emb vs h _ _ V). exact HD'.
  - apply bind_ok in H as (q & V & H). apply var_emb in V as (a & V & ->).
    destruct (wfv_own vs h a W RO V) as [k ->].
    apply bind_ok in H as (s1 & D & H).
    apply (dereference_alone ai vs k s1 (Ret (upd vs h None, ONone))) in D as (ai1 & -> & _ & _ & HD).
    apply ok_pair in H as [<- <-]. rewrite setvar_none.
    do 2 eexists. split; [reflexivity|]. split; [apply wfv_upd; auto; intros ? [=]|].
    intros n td ob HA. edestruct HD as [n' HD']; [apply a_ret; exact HA|].
    eexists. apply a_start. cbn [op_prog]. rewrite (with_var_emb vs h _ _ V). exact HD'.
Qed.

Lemma prog_alone ops : forall ai vs tt tf ys ob,
  wfv vs -> Forall (reads_only (length a0)) ops -> Rel (emb ai vs) tt ->
  srun tt ops = Some (tf, ys) -> xs = ob ++ ys ->
  (forall ai' t, wfv (th_vars t) -> Rel (emb ai' (th_vars t)) tf -> Q ai' t) ->
  exists n, Alone n ai (mkTh vs None ops ob).
Proof.
  induction ops as [|o ops IH]; intros ai vs tt tf ys ob W RO HR HS HX HQ; cbn [srun] in HS.
  - injection HS as <- <-. exists 0. apply A_done; [split; reflexivity| |auto]. cbn. rewrite HX, app_nil_r. reflexivity.
  - destruct (sstep tt o) as [[t1 x]|] eqn:E1; [|discriminate].
    destruct (srun t1 ops) as [[t2 zs]|] eqn:E2; [|discriminate]. injection HS as <- <-.
    inversion RO as [|? ? RO1 RO2]; subst.
    destruct (sim_step _ _ _ _ _ HR E1) as (s1 & F1 & R1 & _).
    destruct (op_alone _ _ _ _ _ W RO1 F1) as (ai' & vs' & -> & W' & HA).
    destruct (IH ai' vs' t1 t2 zs (ob ++ [x]) W' RO2 R1 E2) as [n Hn].
    + rewrite <- app_assoc. exact HX.
    + exact HQ.
    + destruct (HA n ops ob) as [n' Hn']; [exact Hn|]. exists n'. exact Hn'.
Qed.

End Th.

Section Global.
Context {A : Type}.

Lemma finished_step i (m : mem A) t : finished t -> thread_step i m t = Ok (m, t).
Proof. intros [H1 H2]. unfold thread_step. rewrite H1, H2. reflexivity. Qed.

Lemma Alone_finished i a0 xs Q n (ai : list (option (block A))) t :
  Alone i a0 xs Q n ai t -> finished t -> th_obs t = xs /\ Q ai t.
Proof.
  induction 1 as [ai t F E HQ|n ai t ai' t' Hs Hp HA IH]; intros F'; [auto|].
  specialize (Hs (a0 :: repeat [] i ++ [ai]) eq_refl).
  assert (Hi : nth_error (a0 :: repeat [] i ++ [ai]) (S i) = Some ai).
  { cbn. rewrite nth_error_app2; rewrite repeat_length; [|lia]. rewrite Nat.sub_diag. reflexivity. }
  specialize (Hs Hi). rewrite finished_step in Hs by auto. apply ok_pair in Hs as [E <-].
  assert (ai' = ai) as ->; [|auto].
  assert (E2 : nth_error (upd (a0 :: repeat [] i ++ [ai]) (S i) ai') (S i) = Some ai').
  { apply nth_error_upd_eq. apply nth_error_Some. congruence. }
  rewrite <- E, Hi in E2. congruence.
Qed.

Definition Good (a0 : list (option (block A))) (xs : nat -> list (obs A))
    (Q : nat -> list (option (block A)) -> thread A -> Prop) (N : nat -> nat) (c : config A) : Prop :=
  nth_error (fst c) 0 = Some a0 /\
  forall i t, nth_error (snd c) i = Some t ->
    exists ai, nth_error (fst c) (S i) = Some ai /\ Alone i a0 (xs i) (Q i) (N i) ai t.

Lemma turn_good a0 xs Q N c i : Good a0 xs Q N c ->
  exists c', turn i c = Ok c' /\ length (snd c') = length (snd c) /\
    Good a0 xs Q (fun j => N j - if j =? i then 1 else 0) c'.
Proof.
  destruct c as [m ts]. intros [H0 HG]. cbn [fst snd] in *. unfold turn.
  destruct (nth_error ts i) as [t|] eqn:Et.
  - destruct (HG i t Et) as (ai & Hi & HA). remember (N i) as n eqn:En.
    assert (Hl : i < length ts) by (apply nth_error_Some; congruence).
    assert (Hm : S i < length m) by (apply nth_error_Some; congruence).
    assert (HT : exists ai' t', thread_step i m t = Ok (upd m (S i) ai', t') /\ Alone i a0 (xs i) (Q i) (n - 1) ai' t').
    { destruct HA as [ai t F E HQ|n ai t ai' t' Hs Hp HA].
      - exists ai, t. rewrite finished_step by auto. rewrite upd_same by auto. split; auto.
        apply A_done; auto.
      - exists ai', t'. split; [apply Hs; auto|]. cbn. rewrite Nat.sub_0_r. auto. }
    destruct HT as (ai' & t' & Hs & HA'). rewrite Hs. cbn [bind].
    eexists. split; [reflexivity|]. cbn [fst snd]. split; [apply length_upd|]. split; cbn [fst snd].
    + rewrite nth_error_upd_ne by lia. auto.
    + intros j u Hu. destruct (Nat.eqb_spec j i) as [->|Hj].
      * rewrite nth_error_upd_eq in Hu by auto. injection Hu as <-. exists ai'. split.
        -- apply nth_error_upd_eq; auto.
        -- rewrite <- En. exact HA'.
      * rewrite nth_error_upd_ne in Hu by auto. destruct (HG j u Hu) as (aj & Hj1 & Hj2).
        exists aj. split; [rewrite nth_error_upd_ne by lia; auto|]. rewrite Nat.sub_0_r. auto.
  - eexists. split; [reflexivity|]. split; [reflexivity|]. split; [auto|]. intros j u Hu. cbn [fst snd] in *.
    destruct (HG j u Hu) as (aj & Hj1 & Hj2). exists aj. split; [auto|].
    destruct (Nat.eqb_spec j i) as [->|Hj]; [congruence|]. rewrite Nat.sub_0_r. auto.
Qed.

Lemma Good_ext a0 xs Q N N' c : (forall i, N i = N' i) -> Good a0 xs Q N c -> Good a0 xs Q N' c.
Proof.
  intros E [H0 HG]. split; [auto|]. intros i t Ht. destruct (HG i t Ht) as (ai & H1 & H2).
  exists ai. rewrite <- E. auto.
Qed.

Lemma exec_good a0 xs Q sched : forall N c, Good a0 xs Q N c ->
  exists c', exec sched c = Ok c' /\ length (snd c') = length (snd c) /\
    Good a0 xs Q (fun j => N j - turns j sched) c'.
Proof.
  induction sched as [|i sched IH]; intros N c HG; cbn [exec].
  - exists c. split; [auto|]. split; [auto|]. eapply Good_ext; [|exact HG]. intros j. cbn. lia.
  - destruct (turn_good a0 xs Q N c i HG) as (c1 & E1 & L1 & G1). rewrite E1. cbn [bind].
    destruct (IH _ _ G1) as (c2 & E2 & L2 & G2). exists c2. split; [auto|]. split; [congruence|].
    eapply Good_ext; [|exact G2]. intros j. unfold turns. cbn [count_occ].
    destruct (Nat.eq_dec i j) as [->|Hj].
    + rewrite Nat.eqb_refl. lia.
    + replace (j =? i) with false by (symmetry; apply Nat.eqb_neq; auto). lia.
Qed.

(* the initial state *)
Definition shared_blocks (shared : list (list A)) : list (option (block A)) :=
  map (fun l => Some (mkB l 1)) shared.
Definition shared_vars (shared : list (list A)) : tvars :=
  map (fun k => Some (0, k)) (seq 0 (length shared)).

Lemma nrefs_seq n : forall s a,
  nrefs (map Some (seq s n)) a = if (s <=? a) && (a <? s + n) then 1%Z else 0%Z.
Proof.
  unfold nrefs. induction n as [|n IH]; intros s a; cbn [seq map count_occ].
  - destruct (Nat.leb_spec s a), (Nat.ltb_spec a (s + 0)); cbn; lia.
  - specialize (IH (S s) a). destruct (odec (Some s) (Some a)) as [E|E].
    + injection E as ->. rewrite Nat2Z.inj_succ, IH.
      destruct (Nat.leb_spec (S a) a), (Nat.leb_spec a a), (Nat.ltb_spec a (S a + n)), (Nat.ltb_spec a (a + S n)); cbn; lia.
    + assert (a <> s) by congruence. rewrite IH.
      destruct (Nat.leb_spec (S s) a), (Nat.leb_spec s a), (Nat.ltb_spec a (S s + n)), (Nat.ltb_spec a (s + S n)); cbn; lia.
Qed.

Lemma emb_vars shared : vars (emb (shared_blocks shared) [] (shared_vars shared)) = map Some (seq 0 (length shared)).
Proof. unfold emb, shared_vars. cbn [vars]. rewrite map_map. apply map_ext. intros k. reflexivity. Qed.

Lemma emb_heap shared k : nth_error (heap (emb (shared_blocks shared) [] (shared_vars shared))) k =
  option_map (fun l => Some (mkP (Own l) 1 true)) (nth_error shared k).
Proof.
  unfold emb, shared_blocks. cbn [heap map]. rewrite app_nil_r, map_map, nth_error_map. reflexivity.
Qed.

Lemma Rel_start shared : Rel (emb (shared_blocks shared) [] (shared_vars shared)) (map Some shared).
Proof.
  split.
  - unfold Inv. rewrite emb_vars. constructor.
    + intros a p H. rewrite emb_heap in H. destruct (nth_error shared a) as [l|] eqn:E; [|discriminate].
      cbn in H. injection H as <-. rewrite nrefs_seq. cbn [prefs].
      assert (a < length shared) by (apply nth_error_Some; congruence).
      destruct (Nat.leb_spec 0 a), (Nat.ltb_spec a (0 + length shared)); cbn; lia.
    + intros a H. rewrite nrefs_seq in H.
      destruct (Nat.leb_spec 0 a), (Nat.ltb_spec a (0 + length shared)); cbn in H; try lia.
      destruct (nth_error_lt shared a) as [l E]; [lia|]. rewrite emb_heap, E. eexists. reflexivity.
    + intros a p H. rewrite emb_heap in H. destruct (nth_error shared a) as [l|]; [|discriminate].
      cbn in H. injection H as <-. cbn. split; [exact I|]. intros; discriminate.
    + intros f H. cbn in H. destruct f; discriminate.
  - unfold seen. rewrite emb_vars. apply list_eq_nth. intros k. rewrite !nth_error_map.
    destruct (Nat.lt_ge_cases k (length shared)) as [Hk|Hk].
    + rewrite nth_error_nth' with (d := 0) by (rewrite seq_length; lia). rewrite seq_nth by lia.
      cbn [plus option_map]. unfold look. rewrite emb_heap.
      destruct (nth_error_lt shared k Hk) as [l ->]. reflexivity.
    + rewrite (proj2 (nth_error_None (seq 0 (length shared)) k)) by (rewrite seq_length; lia).
      rewrite (proj2 (nth_error_None shared k)) by lia. reflexivity.
Qed.

Lemma wfv_start i shared : wfv i (shared_blocks shared) (shared_vars shared).
Proof.
  unfold wfv, shared_vars, shared_blocks. rewrite !map_length, seq_length. split; [lia|].
  intros h a H. rewrite nth_error_map in H. destruct (nth_error (seq 0 (length shared)) h) as [k|] eqn:E; [|discriminate].
  cbn in H. injection H as <-. assert (h < length (seq 0 (length shared))) by (apply nth_error_Some; congruence).
  rewrite seq_length in *. rewrite nth_error_nth' with (d := 0) in E by (rewrite seq_length; lia).
  rewrite seq_nth in E by lia. injection E as <-. cbn [fst snd]. lia.
Qed.

(* what a thread leaves behind *)
Definition left_over (a0 : list (option (block A))) (i : nat) (tf : sstate A)
    (ai : list (option (block A))) (t : thread A) : Prop :=
  map (fun v => match v with Some a => option_map bdata (blk i a0 ai a) | None => None end) (th_vars t) = tf /\
  (forall k b, nth_error ai k = Some (Some b) -> In (Some (S i, k)) (th_vars t)) /\
  (forall a, In (Some a) (th_vars t) -> fst a = 0 \/ fst a = S i).

Lemma left_over_ok a0 i tf ai t : wfv i a0 (th_vars t) -> Rel (emb a0 ai (th_vars t)) tf -> left_over a0 i tf ai t.
Proof.
  intros W [HI HS]. split; [|split].
  - unfold seen in HS. cbn [vars emb] in HS. apply list_eq_nth. intros h.
    assert (E : nth_error (map (look (emb a0 ai (th_vars t))) (map (option_map (ea a0)) (th_vars t))) h
              = nth_error (map (option_map (@Own A)) tf) h) by (f_equal; exact HS).
    rewrite !nth_error_map in E. rewrite nth_error_map.
    destruct (nth_error (th_vars t) h) as [[a|]|] eqn:Ev; cbn [option_map] in *.
    + unfold look in E. rewrite (heap_ea i a0) in E by (eapply wfv_inw; eauto).
      assert (Hw : inw i a0 a) by (eapply wfv_inw; eauto).
      destruct a as [[|j] k]; unfold blk.
      * destruct (nth_error a0 k) as [[b|]|]; cbn in E; destruct (nth_error tf h) as [[l|]|]; cbn in E; try discriminate; cbn; congruence.
      * destruct Hw as [[Hw _]|Hw]; cbn in Hw; [discriminate|]. injection Hw as ->. rewrite Nat.eqb_refl.
        destruct (nth_error ai k) as [[b|]|]; cbn in E; destruct (nth_error tf h) as [[l|]|]; cbn in E; try discriminate; cbn; congruence.
    + cbn in E. destruct (nth_error tf h) as [[l|]|]; cbn in E; try discriminate; cbn; congruence.
    + destruct (nth_error tf h) as [[l|]|]; cbn in E; try discriminate; cbn; congruence.
  - intros k b Hb. assert (Hh : nth_error (heap (emb a0 ai (th_vars t))) (ea a0 (S i, k)) = Some (Some (mkP (Own (bdata b)) (brefs b) true))).
    { rewrite (heap_ea i a0) by (right; reflexivity). rewrite Hb. reflexivity. }
    destruct (inv_cnt _ _ HI _ _ Hh) as [_ Hn]. unfold nrefs in Hn.
    assert (Hin : In (Some (ea a0 (S i, k))) (vars (emb a0 ai (th_vars t)))).
    { apply (count_occ_In odec). lia. }
    cbn [vars emb] in Hin. apply in_map_iff in Hin as ([a|] & E & Hin); [|discriminate].
    cbn in E. injection E as E. apply In_nth_error in Hin as Hh2. destruct Hh2 as [h Hh2].
    assert (Hw : inw i a0 a) by (eapply wfv_inw; eauto).
    destruct a as [[|j] q]; destruct Hw as [[Hw1 Hw2]|Hw]; cbn in *; try discriminate; [lia|].
    injection Hw as ->. replace q with k in Hin by lia. exact Hin.
  - intros a Ha. apply In_nth_error in Ha as [h Ha]. destruct (wfv_inw _ _ _ _ _ W Ha) as [[H _]|H]; auto.
Qed.

Lemma c77_good shared progs :
  Forall (Forall (reads_only (A := A) (length shared))) progs ->
  (forall p, In p progs -> srun (map Some shared) p <> None) ->
  exists xs Q N, Good (shared_blocks shared) xs Q N (start shared progs) /\
    forall i p tf ys, nth_error progs i = Some p -> srun (map Some shared) p = Some (tf, ys) ->
      xs i = ys /\ Q i = left_over (shared_blocks shared) i tf.
Proof.
  intros HP HS.
  set (res i := match nth_error progs i with Some p => srun (map Some shared) p | None => None end).
  set (xs i := match res i with Some (_, ys) => ys | None => [] end).
  set (Q i := match res i with Some (tf, _) => left_over (shared_blocks shared) i tf | None => fun _ _ => True end).
  assert (HA : forall i p, nth_error progs i = Some p ->
            exists n, Alone i (shared_blocks shared) (xs i) (Q i) n [] (mkTh (shared_vars shared) None p [])).
  { intros i p Hp. assert (Hin : In p progs) by (eapply nth_error_In; eauto).
    destruct (srun (map Some shared) p) as [[tf ys]|] eqn:E; [|exfalso; eapply HS; eauto].
    eapply (prog_alone i (shared_blocks shared) (xs i) (Q i) p [] (shared_vars shared) (map Some shared) tf ys []).
    - apply wfv_start.
    - unfold shared_blocks. rewrite map_length. rewrite Forall_forall in HP. auto.
    - apply Rel_start.
    - exact E.
    - unfold xs, res. rewrite Hp, E. reflexivity.
    - intros ai t W R. unfold Q, res. rewrite Hp, E. apply left_over_ok; auto. }
  assert (HN : exists N : nat -> nat, forall i p, nth_error progs i = Some p ->
            Alone i (shared_blocks shared) (xs i) (Q i) (N i) [] (mkTh (shared_vars shared) None p [])).
  { clear - HA. clearbody xs Q. revert xs Q HA. induction progs as [|p progs IH]; intros xs Q HA.
    - exists (fun _ => 0). intros i p Hp. destruct i; discriminate.
    - destruct (HA 0 p eq_refl) as [n Hn].
      assert (HF : forall k, k <= length (p :: progs) -> exists N : nat -> nat, forall i q, i < k -> nth_error (p :: progs) i = Some q ->
            Alone i (shared_blocks shared) (xs i) (Q i) (N i) [] (mkTh (shared_vars shared) None q [])).
      { clear IH. induction k as [|k IHk]; intros Hk.
        - exists (fun _ => 0). intros; lia.
        - destruct IHk as [N HN]; [lia|]. destruct (nth_error_lt (p :: progs) k) as [q Hq]; [lia|].
          destruct (HA k q Hq) as [w Hw]. exists (fun j => if j =? k then w else N j).
          intros i r Hi Hr. destruct (Nat.eqb_spec i k) as [->|Hne].
          + rewrite Hq in Hr. injection Hr as <-. exact Hw.
          + apply HN; [lia|auto]. }
      destruct (HF _ (le_n _)) as [N HN]. exists N. intros i q Hq. apply HN; auto.
      apply nth_error_Some. congruence. }
  destruct HN as [N HN]. exists xs, Q, N. split.
  - split; [reflexivity|]. intros i t Ht. unfold start in *. cbn [fst snd] in *.
    rewrite nth_error_map in Ht. destruct (nth_error progs i) as [p|] eqn:Hp; [|discriminate].
    cbn in Ht. injection Ht as <-. exists []. split.
    + cbn. rewrite nth_error_map, Hp. reflexivity.
    + apply HN; auto.
  - intros i p tf ys Hp E. unfold xs, Q, res. rewrite Hp, E. auto.
Qed.

Lemma c77_private shared progs :
  Forall (Forall (reads_only (A := A) (length shared))) progs ->
  (forall p, In p progs -> srun (map Some shared) p <> None) ->
  forall sched, exists m ts, exec sched (start shared progs) = Ok (m, ts) /\
    nth_error m 0 = Some (map (fun l => Some (mkB l 1)) shared) /\ length ts = length progs /\
    forall i p tf xs, nth_error progs i = Some p -> srun (map Some shared) p = Some (tf, xs) ->
      exists t, nth_error ts i = Some t /\ (exists ys, xs = th_obs t ++ ys) /\
        (finished t -> th_obs t = xs /\
           map (fun v => match v with
                         | Some a => match block_at m a with Ok b => Some (bdata b) | _ => None end
                         | None => None end) (th_vars t) = tf /\
           forall k b, block_at m (S i, k) = Ok b -> In (Some (S i, k)) (th_vars t)).
Proof.
  intros HP HS sched. destruct (c77_good shared progs HP HS) as (xs & Q & N & HG & HX).
  destruct (exec_good _ _ _ sched _ _ HG) as ([m ts] & E & L & [G0 G]).
  cbn [fst snd] in *. exists m, ts. split; [auto|]. split; [exact G0|].
  assert (L' : length ts = length progs) by (unfold start in L; cbn in L; rewrite map_length in L; auto).
  split; [auto|]. intros i p tf ys Hp Hs. destruct (HX i p tf ys Hp Hs) as [<- HQ].
  destruct (nth_error_lt ts i) as [t Ht]; [rewrite L'; apply nth_error_Some; congruence|].
  destruct (G i t Ht) as (ai & Hi & HA). exists t. split; [auto|]. split; [eapply prefix_obs; eauto|].
  intros F. destruct (Alone_finished _ _ _ _ _ _ _ HA F) as [HO HQ']. split; [auto|].
  rewrite HQ in HQ'. destruct HQ' as (H1 & H2 & H3).
  assert (HB : forall a, match block_at m a with Ok b => Some b | _ => None end = blk i (shared_blocks shared) ai a \/ (fst a <> 0 /\ fst a <> S i)).
  { intros [[|j] k]; unfold block_at, blk; cbn [fst snd].
    - left. rewrite G0. destruct (nth_error (shared_blocks shared) k) as [[b|]|]; reflexivity.
    - destruct (Nat.eqb_spec j i) as [->|Hne]; [left|right; split; lia].
      rewrite Hi. destruct (nth_error ai k) as [[b|]|]; reflexivity. }
  split.
  - rewrite <- H1. apply map_ext_in. intros [a|] Hin; [|reflexivity].
    destruct (HB a) as [Eb|[N1 N2]].
    + rewrite <- Eb. destruct (block_at m a); reflexivity.
    + destruct (H3 a Hin); contradiction.
  - intros k b Hb. apply (H2 k b). unfold block_at in Hb. cbn [fst snd] in Hb. rewrite Hi in Hb.
    destruct (nth_error ai k) as [[b'|]|]; congruence.
Qed.

Lemma c77_ends shared progs :
  Forall (Forall (reads_only (A := A) (length shared))) progs ->
  (forall p, In p progs -> srun (map Some shared) p <> None) ->
  exists N, forall sched, (forall i, i < length progs -> N <= turns i sched) ->
    exists m ts, exec sched (start shared progs) = Ok (m, ts) /\ Forall finished ts.
Proof.
  intros HP HS. destruct (c77_good shared progs HP HS) as (xs & Q & N & HG & HX).
  exists (list_max (map N (seq 0 (length progs)))). intros sched HT.
  destruct (exec_good _ _ _ sched _ _ HG) as ([m ts] & E & L & [G0 G]).
  exists m, ts. split; [auto|]. cbn [fst snd] in *. apply Forall_forall. intros t Ht.
  apply In_nth_error in Ht as [i Ht]. destruct (G i t Ht) as (ai & Hi & HA).
  assert (Hl : i < length progs).
  { unfold start in L. cbn in L. rewrite map_length in L. rewrite <- L. apply nth_error_Some. congruence. }
  specialize (HT i Hl).
  assert (HM : N i <= list_max (map N (seq 0 (length progs)))).
  { assert (HF := proj1 (list_max_le (map N (seq 0 (length progs))) _) (le_n _)).
    rewrite Forall_forall in HF. apply HF. apply in_map. apply in_seq. lia. }
  replace (N i - turns i sched) with 0 in HA by lia. inversion HA; auto.
Qed.
End Global.
