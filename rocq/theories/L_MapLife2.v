From Coq Require Import Permutation Lia.
From Verif Require Import Base M_RefCount S_RefCount L_RefCount M_MapLife S_MapLife L_MapLife.

Section Life.
Context {A : Type}.
Implicit Types (s : state A) (w : world A).
Notation judgement := (list (list (list A)) -> verdict).

(* ---- the loops ---- *)
Lemma repeat_more {X} (x : X) k : repeat x k ++ [x] = repeat x (S k).
Proof. induction k; cbn; [reflexivity|]. rewrite IHk. reflexivity. Qed.
Lemma cgs_rounds_ok (judge : judgement) w m x : apply w m = Ok x -> forall n k,
  cgs_rounds judge n w m (repeat x k) = Abort \/ exists j, cgs_rounds judge n w m (repeat x k) = Ok (repeat x j).
Proof.
  intros E. induction n as [|n IH]; intros k; cbn [cgs_rounds]; [right; exists k; reflexivity|]. rewrite E. cbn [bind]. rewrite repeat_more.
  destruct (judge (repeat x (S k))); auto. right. exists (S k). reflexivity.
Qed.
Lemma power_rounds_ok (judge : judgement) w m x : apply w m = Ok x -> forall n k,
  power_rounds judge n w m (repeat x k) = Abort \/ exists j, power_rounds judge n w m (repeat x k) = Ok (repeat x j).
Proof.
  intros E. induction n as [|n IH]; intros k; cbn [power_rounds]; [right; exists k; reflexivity|]. rewrite E. cbn [bind]. rewrite repeat_more.
  destruct (judge (repeat x (S k))); auto. right. exists (S k). reflexivity.
Qed.
Lemma eigs_columns_ok w m x : apply w m = Ok x -> forall n k, eigs_columns n w m (repeat x k) = Ok (repeat x (k + n)).
Proof.
  intros E. induction n as [|n IH]; intros k; cbn [eigs_columns]; [rewrite Nat.add_0_r; reflexivity|]. rewrite E. cbn [bind]. rewrite repeat_more, IH. f_equal. f_equal. lia.
Qed.
Lemma eigs_rounds_ok (judge : judgement) c w m x : apply w m = Ok x -> forall n k,
  eigs_rounds judge n c w m (repeat x k) = Abort \/ eigs_rounds judge n c w m (repeat x k) = Hang \/ exists j, eigs_rounds judge n c w m (repeat x k) = Ok (repeat x j).
Proof.
  intros E. induction n as [|n IH]; intros k; cbn [eigs_rounds]; [auto|]. rewrite E. cbn [bind]. rewrite repeat_more.
  destruct (judge (repeat x k)); [apply IH| | |auto].
  - right. right. exists k. reflexivity.
  - destruct c; [|auto]. right. right. exists k. reflexivity.
Qed.

(* what an operator made from [src] reads *)
Definition reads w (src : source) (x : list (list A)) : Prop :=
  match src with FromMatrix hs => Forall2 (holds (mem w)) hs x | FromFunction f => forall vs, nth_error (funs w) f = Some (Some vs) -> Forall2 (holds (mem w)) vs x end.
Definition gives_back (k : solver) : bool := match k with Eigs _ _ _ _ => false | _ => true end.
Definition left_map (k : solver) w src : option (operator * bool) := if gives_back k then None else Some (made w src, false).
Definition left_seen (k : solver) w src : list (option (buffer A)) := if gives_back k then repeat None (length (added w src)) else added w src.

Lemma Forall2_holds_same s s' (vs us : list nat) x : ext s' = ext s -> (forall i h, nth_error vs i = Some h -> exists g, nth_error us i = Some g /\ nth_error (seen s') h = nth_error (seen s) g) -> length vs = length us ->
  Forall2 (holds s') vs x -> Forall2 (holds s) us x.
Proof.
  intros X. revert us x. induction vs as [|h vs IH]; intros us x H L F.
  - inversion F; subst. destruct us; [constructor|discriminate].
  - inversion F as [|? l ? x' Hl Hx]; subst. destruct us as [|g us]; [discriminate|]. constructor.
    + destruct (H 0 h eq_refl) as (g' & Eg & Es). injection Eg as <-. destruct Hl as (b & Eb & Ec). exists b. split; [congruence|].
      destruct b as [l0|f0 n0]; cbn in *; [exact Ec|]. rewrite X in Ec. exact Ec.
    + apply IH; [|cbn in L; lia|exact Hx]. intros i h' E. exact (H (S i) h' E).
Qed.

Lemma solve_ok (judge : judgement) k w src : Good w -> usable w src ->
  exists x, reads w src x /\
    (solve judge k w src = Abort \/ (gives_back k = false /\ solve judge k w src = Hang) \/
     exists s' j, solve judge k w src = Ok (mkW s' (funs w) (maps w ++ [left_map k w src]), repeat x j) /\
       Good (mkW s' (funs w) (maps w ++ [left_map k w src])) /\ ext s' = ext (mem w) /\ seen s' = seen (mem w) ++ left_seen k w src).
Proof.
  intros G U. destruct (new_map_ok w src false G U) as (s1 & E1 & G1 & X1 & S1). unfold solve. rewrite E1. cbn [bind fst snd].
  set (w1 := mkW s1 (funs w) (maps w ++ [Some (made w src, false)])) in *.
  assert (Em : nth_error (maps w1) (length (maps w)) = Some (Some (made w src, false))) by (cbn [maps w1]; rewrite nth_error_app2, Nat.sub_diag by lia; reflexivity).
  destruct (apply_ok w1 (length (maps w)) (made w src) false G1 Em) as (x & Ex & Hx).
  { destruct src as [hs|f]; cbn [made]; [exact I|]. destruct U as (vs & Ev). exists vs. exact Ev. }
  assert (R : reads w src x).
  { destruct src as [hs|f]; cbn [made reads usable] in *.
    - apply (Forall2_holds_same (mem w) s1 (seq (length (seen (mem w))) (length hs)) hs x X1); [|apply seq_length|exact Hx].
      intros i h E. assert (Hi : i < length hs) by (apply nth_error_Some_lt in E || (assert (nth_error (seq (length (seen (mem w))) (length hs)) i <> None) by congruence; apply nth_error_Some in H; rewrite seq_length in H; exact H)).
      rewrite nth_error_nth' with (d := 0) in E by (rewrite seq_length; exact Hi). rewrite seq_nth in E by exact Hi. injection E as <-.
      destruct (nth_error hs i) as [g|] eqn:Eg; [|apply nth_error_None in Eg; lia]. exists g. split; [reflexivity|]. rewrite S1, nth_error_app2 by lia.
      replace (length (seen (mem w)) + i - length (seen (mem w))) with i by lia. cbn [added]. rewrite nth_error_map, Eg. cbn. 
      rewrite Forall_forall in U. destruct (U g (nth_error_In _ _ Eg)) as (b & Eb). rewrite Eb. f_equal. apply (nth_error_nth _ _ None) in Eb. exact Eb.
    - intros vs Ev. specialize (Hx vs Ev). apply (Forall2_holds_same (mem w) s1 vs vs x X1); [|reflexivity|exact Hx]. intros i h E. exists h. split; [exact E|]. rewrite S1. cbn [added]. rewrite app_nil_r. reflexivity. }
  exists x. split; [exact R|].
  assert (Del : exists s2, delete_map w1 (length (maps w)) = Ok (mkW s2 (funs w) (maps w ++ [None])) /\ Good (mkW s2 (funs w) (maps w ++ [None])) /\ ext s2 = ext (mem w) /\
    seen s2 = seen (mem w) ++ repeat None (length (added w src))).
  { destruct (delete_map_ok w1 (length (maps w)) _ _ G1 Em) as (s2 & E2 & G2 & X2 & S2). cbn [maps funs w1 mem] in *. rewrite upd_app_mid in E2, G2. exists s2. split; [exact E2|]. split; [exact G2|].
    split; [congruence|]. rewrite S2, S1. destruct src as [hs|f]; cbn [made within added].
    - rewrite <- (map_length (fun h => nth h (seen (mem w)) None) hs) at 1. apply erase_end.
    - reflexivity. }
  destruct Del as (s2 & E2 & G2 & X2 & S2).
  destruct k as [maxiter|iter|fuel n neig c]; unfold left_map, left_seen; cbn [gives_back].
  - unfold cgs_life. rewrite Ex. cbn [bind]. change [x] with (repeat x 1).
    destruct (judge (repeat x 1)); cbn [bind]; [|rewrite E2; cbn [bind]; right; right; exists s2, 1; auto|auto|auto].
    destruct (cgs_rounds_ok judge w1 _ x Ex (S maxiter) 1) as [E|(j & E)]; rewrite E; cbn [bind]; [auto|]. rewrite E2. cbn [bind]. right; right; exists s2, j. auto.
  - unfold power_life. change (@nil (list (list A))) with (repeat x 0).
    destruct (power_rounds_ok judge w1 _ x Ex (S iter) 0) as [E|(j & E)]; rewrite E; cbn [bind]; [auto|]. rewrite E2. cbn [bind]. right; right; exists s2, j. auto.
  - unfold eigs_life. destruct (negb ((n <? neig) || (neig =? 0))); cbn [assert_ bind]; [|auto]. change (@nil (list (list A))) with (repeat x 0).
    destruct (n <=? 4).
    + rewrite (eigs_columns_ok w1 _ x Ex). cbn [bind]. right; right. exists s1, (0 + n). auto.
    + destruct (eigs_rounds_ok judge c w1 _ x Ex fuel 0) as [E|[E|(j & E)]]; rewrite E; cbn [bind]; [auto|auto|]. right; right. exists s1, j. auto.
Qed.

(* ---- steps of programs ---- *)
Lemma step_others s o s' x h : effect s o s' x -> ~ In h (names o) -> h < length (seen s) -> nth_error (seen s') h = nth_error (seen s) h.
Proof.
  intros E N L. destruct o as [l| |f n|g|g g'|g i v|g i|g|g l|g|f i v]; cbn [effect names] in *.
  - destruct E as (-> & _). apply nth_error_app1, L.
  - destruct E as (-> & _). apply nth_error_app1, L.
  - destruct E as (-> & _). apply nth_error_app1, L.
  - destruct E as (b & _ & -> & _). apply nth_error_app1, L.
  - destruct E as (b & _ & -> & _). rewrite nth_error_upd_ne; [reflexivity|]. intros ->. apply N. cbn. auto.
  - destruct E as (_ & b & l & _ & _ & [(f & n & l0 & _ & _ & _ & -> & _)|(_ & -> & _)]); [reflexivity|]. rewrite nth_error_upd_ne; [reflexivity|]. intros ->. apply N. cbn. auto.
  - destruct E as (-> & _). reflexivity.
  - destruct E as (-> & _). reflexivity.
  - destruct E as (-> & _). rewrite nth_error_upd_ne; [reflexivity|]. intros ->. apply N. cbn. auto.
  - destruct E as (-> & _). rewrite nth_error_upd_ne; [reflexivity|]. intros ->. apply N. cbn. auto.
  - destruct E as (-> & _). reflexivity.
Qed.

(* the vectors that an operation may change or destroy *)
Definition touched w (o : uop A) : list nat :=
  match o with
  | UVec o => names o
  | UDrop f => match nth_error (funs w) f with Some o => inside o | None => [] end
  | URelease m => match nth_error (maps w) m with Some o => within o | None => [] end
  | _ => []
  end.
Definition funs_after w (o : uop A) : list (option (list nat)) :=
  match o with
  | UFun hs => funs w ++ [Some (seq (length (seen (mem w)) + length hs) (length hs))]
  | UDrop f => upd (funs w) f None
  | _ => funs w
  end.
Definition maps_after w (o : uop A) : list (option (operator * bool)) :=
  match o with
  | USolve _ k src => maps w ++ [left_map k w src]
  | UKeep src => maps w ++ [Some (made w src, true)]
  | URelease m => upd (maps w) m None
  | _ => maps w
  end.

Lemma ustep_ok w o : Good w -> proper w o ->
  (exists j k src, o = USolve j k src /\ (ustep w o = Abort \/ gives_back k = false /\ ustep w o = Hang)) \/
  exists s' xs, ustep w o = Ok (mkW s' (funs_after w o) (maps_after w o), xs) /\ Good (mkW s' (funs_after w o) (maps_after w o)) /\
    (forall h, ~ In h (touched w o) -> h < length (seen (mem w)) -> nth_error (seen s') h = nth_error (seen (mem w)) h) /\
    match o with
    | UVec o => exists x, effect (mem w) o s' x /\ xs = []
    | UFun hs => seen s' = seen (mem w) ++ repeat None (length hs) ++ map (fun h => nth h (seen (mem w)) None) hs
    | UDrop f => exists vs, nth_error (funs w) f = Some (Some vs) /\ seen s' = erase vs (seen (mem w))
    | USolve _ k src => exists x j, reads w src x /\ xs = repeat x j /\ seen s' = seen (mem w) ++ left_seen k w src
    | UKeep src => seen s' = seen (mem w) ++ added w src
    | UApply m => s' = mem w /\ exists p x, nth_error (maps w) m = Some (Some (p, true)) /\ xs = [x] /\
        match p with MMatrix vs => Forall2 (holds (mem w)) vs x | MFunction f => forall vs, nth_error (funs w) f = Some (Some vs) -> Forall2 (holds (mem w)) vs x end
    | URelease m => exists p, nth_error (maps w) m = Some (Some (p, true)) /\ seen s' = erase (within (Some (p, true))) (seen (mem w))
    end.
Proof.
  intros G P. destruct o as [o|hs|f|judge k src|src|m|m]; cbn [proper ustep touched funs_after maps_after] in *.
  - destruct P as (L & N). destruct (step_ok (mem w) o (proj1 G) L) as (s' & x & E & I & F). rewrite E. cbn [bind]. right. exists s', []. split; [reflexivity|].
    assert (K : forall h, ~ In h (names o) -> h < length (seen (mem w)) -> nth_error (seen s') h = nth_error (seen (mem w)) h) by (intros h; apply step_others with (x := x); exact F).
    split; [|split; [exact K|eauto]]. apply (good_same w s' G I). intros h Hh. destruct G as (_ & _ & Ga). destruct (Ga h Hh) as (b & Eb). exists b. rewrite K; [exact Eb| |apply alive_lt; exists b; exact Eb].
    intros Hn. rewrite Forall_forall in N. exact (N h Hn Hh).
  - destruct (with_args_ok w hs G P) as (s' & E & G' & X & S). rewrite E. cbn [bind]. right. exists s', []. split; [reflexivity|]. split; [exact G'|]. split; [|exact S].
    intros h _ Hh. rewrite S. apply nth_error_app1, Hh.
  - destruct P as (vs & Ev). destruct (drop_fun_ok w f vs G Ev) as (s' & E & G' & X & S). rewrite E. cbn [bind]. right. exists s', []. split; [reflexivity|]. split; [exact G'|]. split; [|eauto].
    intros h Hn _. rewrite S, erase_nth. rewrite Ev in Hn. cbn [inside] in Hn. destruct (in_dec Nat.eq_dec h vs); [contradiction|reflexivity].
  - destruct (solve_ok judge k w src G P) as (x & R & [E|[(Ek & E)|(s' & j & E & G' & X & S)]]).
    + left. exists judge, k, src. auto.
    + left. exists judge, k, src. auto.
    + right. exists s', (repeat x j). split; [exact E|]. split; [exact G'|]. split; [|eauto 6]. intros h _ Hh. rewrite S. apply nth_error_app1, Hh.
  - destruct (new_map_ok w src true G P) as (s' & E & G' & X & S). rewrite E. cbn [bind]. right. exists s', []. split; [reflexivity|]. split; [exact G'|]. split; [|exact S].
    intros h _ Hh. rewrite S. apply nth_error_app1, Hh.
  - destruct P as (p & E & H). destruct (apply_ok w m p true G E H) as (x & Ex & Hx). rewrite Ex. cbn [bind]. right. exists (mem w), [x]. split; [destruct w; reflexivity|]. split; [destruct w; exact G|].
    split; [auto|]. split; [reflexivity|]. exists p, x. auto.
  - destruct P as (p & E). destruct (delete_map_ok w m p true G E) as (s' & Ed & G' & X & S). rewrite Ed. cbn [bind]. right. exists s', []. split; [reflexivity|]. split; [exact G'|]. split; [|eauto].
    intros h Hn _. rewrite E in Hn. rewrite S, erase_nth. destruct (in_dec Nat.eq_dec h (within (Some (p, true)))); [contradiction|reflexivity].
Qed.

Lemma history_good P w0 w : Good w0 -> history P w0 w -> Good w.
Proof.
  intros G H. induction H as [|w o w' xs _ IH Pr _ E]; [exact G|]. destruct (ustep_ok w o IH Pr) as [(j & k & src & _ & [X|(_ & X)])|(s' & ys & X & G' & _)]; rewrite X in E; try discriminate.
  injection E as <- _. exact G'.
Qed.

(* function objects and operators that are not ended or released keep their vectors *)
Lemma owned_apart w f vs m p k : Good w -> nth_error (funs w) f = Some (Some vs) -> nth_error (maps w) m = Some (Some (p, k)) -> forall h, In h vs -> ~ In h (within (Some (p, k))).
Proof.
  intros (_ & N & _) Ef Em h Hf Hm. unfold owned in N. apply NoDup_parts in N. destruct N as (_ & _ & N). apply (N h).
  - apply in_concat. exists vs. split; [|exact Hf]. change vs with (inside (Some vs)). apply in_map. apply nth_error_In in Ef. exact Ef.
  - apply in_concat. exists (within (Some (p, k))). split; [|exact Hm]. apply in_map. apply nth_error_In in Em. exact Em.
Qed.
Lemma funs_apart w f vs g us : Good w -> nth_error (funs w) f = Some (Some vs) -> nth_error (funs w) g = Some (Some us) -> f <> g -> forall h, In h vs -> ~ In h us.
Proof.
  intros (_ & N & _) Ef Eg D h Hf Hg. unfold owned in N. apply NoDup_parts in N. destruct N as (N & _). pose proof (concat_upd inside (funs w) f _ None Ef eq_refl) as P.
  apply (Permutation_NoDup P) in N. apply NoDup_parts in N. destruct N as (_ & _ & N). apply (N h Hf). apply in_concat. exists us. split; [|exact Hg]. change us with (inside (Some us)). apply in_map.
  apply (nth_error_In _ g). rewrite nth_error_upd_ne by auto. exact Eg.
Qed.
Lemma maps_apart w f vs k g p k' : Good w -> nth_error (maps w) f = Some (Some (MMatrix vs, k)) -> nth_error (maps w) g = Some (Some (p, k')) -> f <> g -> forall h, In h vs -> ~ In h (within (Some (p, k'))).
Proof.
  intros (_ & N & _) Ef Eg D h Hf Hg. unfold owned in N. apply NoDup_parts in N. destruct N as (_ & N & _). pose proof (concat_upd within (maps w) f _ None Ef eq_refl) as P.
  apply (Permutation_NoDup P) in N. apply NoDup_parts in N. destruct N as (_ & _ & N). apply (N h Hf). apply in_concat. exists (within (Some (p, k'))). split; [|exact Hg]. apply in_map.
  apply (nth_error_In _ g). rewrite nth_error_upd_ne by auto. exact Eg.
Qed.

Lemma fun_kept w o w' xs f vs : Good w -> proper w o -> ustep w o = Ok (w', xs) -> nth_error (funs w) f = Some (Some vs) -> o <> UDrop f ->
  nth_error (funs w') f = Some (Some vs) /\ forall h, In h vs -> nth_error (seen (mem w')) h = nth_error (seen (mem w)) h.
Proof.
  intros G P E Ef D. destruct (ustep_ok w o G P) as [(j & k & src & _ & [X|(_ & X)])|(s' & ys & X & G' & K & _)]; rewrite X in E; try discriminate. injection E as <- _. cbn [funs mem].
  assert (Lf : f < length (funs w)) by (apply nth_error_Some; congruence).
  split.
  - destruct o; cbn [funs_after]; try exact Ef; [rewrite nth_error_app1; assumption|]. rewrite nth_error_upd_ne; [exact Ef|]. congruence.
  - intros h Hh. destruct (fun_alive w f vs G Ef) as (L & _). rewrite Forall_forall in L. apply K; [|apply alive_lt, L, Hh].
    destruct o as [o|hs|g|judge k src|src|m|m]; cbn [touched proper] in *; try tauto.
    + destruct P as (_ & N). rewrite Forall_forall in N. intros Hn. apply (N h Hn). unfold owned. rewrite in_app_iff. left. apply in_concat. exists vs. split; [|exact Hh].
      change vs with (inside (Some vs)). apply in_map. apply nth_error_In in Ef. exact Ef.
    + destruct P as (us & Eg). rewrite Eg. cbn [inside]. apply (funs_apart w f vs g us G Ef Eg); [congruence|exact Hh].
    + destruct P as (p & Em). rewrite Em. apply (owned_apart w f vs m p true G Ef Em h Hh).
Qed.
Lemma map_kept w o w' xs m vs : Good w -> proper w o -> ustep w o = Ok (w', xs) -> nth_error (maps w) m = Some (Some (MMatrix vs, false)) ->
  nth_error (maps w') m = Some (Some (MMatrix vs, false)) /\ forall h, In h vs -> nth_error (seen (mem w')) h = nth_error (seen (mem w)) h.
Proof.
  intros G P E Em. destruct (ustep_ok w o G P) as [(j & k & src & _ & [X|(_ & X)])|(s' & ys & X & G' & K & _)]; rewrite X in E; try discriminate. injection E as <- _. cbn [maps mem].
  assert (Lm : m < length (maps w)) by (apply nth_error_Some; congruence).
  split.
  - destruct o as [o|hs|g|judge k src|src|m'|m']; cbn [maps_after]; try exact Em; try (rewrite nth_error_app1; assumption). rewrite nth_error_upd_ne; [exact Em|]. intros ->. cbn in P. destruct P as (p & Ep). congruence.
  - intros h Hh. destruct (map_alive w m vs false G Em) as (L & _). rewrite Forall_forall in L. apply K; [|apply alive_lt, L, Hh].
    destruct o as [o|hs|g|judge k src|src|m'|m']; cbn [touched proper] in *; try tauto.
    + destruct P as (_ & N). rewrite Forall_forall in N. intros Hn. apply (N h Hn). unfold owned. rewrite in_app_iff. right. apply in_concat. exists vs. split; [|exact Hh].
      change vs with (within (Some (MMatrix vs, false))). apply in_map. apply nth_error_In in Em. exact Em.
    + destruct P as (us & Eg). rewrite Eg. cbn [inside]. intros Hu. exact (owned_apart w g us m _ _ G Eg Em h Hu Hh).
    + destruct P as (p & Ep). rewrite Ep. apply (maps_apart w m vs false m' p true G Em Ep); [congruence|exact Hh].
Qed.

(* without eigs no operator is left that the program does not keep *)
Lemma no_hidden bufs w : history no_eigs (start bufs) w -> forall m p, nth_error (maps w) m <> Some (Some (p, false)).
Proof.
  intros H. induction H as [|w o w' xs H IH Pr Ne E]; [intros [|m] p; discriminate|].
  pose proof (history_good _ _ _ (good_start bufs) H) as G.
  destruct (ustep_ok w o G Pr) as [(j & k & src & _ & [X|(_ & X)])|(s' & ys & X & G' & _)]; rewrite X in E; try discriminate. injection E as <- _. cbn [maps].
  intros m p Em. destruct o as [o|hs|g|judge k src|src|m'|m']; cbn [maps_after] in Em; try exact (IH m p Em).
  - destruct (Nat.lt_ge_cases m (length (maps w))) as [L|L]; [rewrite nth_error_app1 in Em by exact L; exact (IH m p Em)|]. rewrite nth_error_app2 in Em by exact L.
    destruct (m - length (maps w)) as [|i]; [|destruct i; discriminate]. cbn in Em. unfold left_map in Em. destruct k; cbn in Ne, Em; try discriminate. contradiction.
  - destruct (Nat.lt_ge_cases m (length (maps w))) as [L|L]; [rewrite nth_error_app1 in Em by exact L; exact (IH m p Em)|]. rewrite nth_error_app2 in Em by exact L.
    destruct (m - length (maps w)) as [|i]; [|destruct i; discriminate]. cbn in Em. discriminate.
  - rewrite upd_nth in Em. destruct (Nat.eq_dec m' m); [destruct (m <? length (maps w)); discriminate|exact (IH m p Em)].
Qed.
Lemma nothing_owned w : Forall (fun f => f = None) (funs w) -> (forall m p k, nth_error (maps w) m <> Some (Some (p, k))) -> owned w = [].
Proof.
  intros F M. unfold owned.
  assert (E1 : concat (map inside (funs w)) = []) by (induction F as [|f l -> _ IH]; [reflexivity|exact IH]).
  assert (E2 : forall l : list (option (operator * bool)), (forall m p k, nth_error l m <> Some (Some (p, k))) -> concat (map within l) = []).
  { induction l as [|o l IH]; intros H; [reflexivity|]. destruct o as [[p k]|]; [exfalso; exact (H 0 p k eq_refl)|]. cbn. apply IH. intros m p k. exact (H (S m) p k). }
  rewrite E1, (E2 _ M). reflexivity.
Qed.
Lemma dead_free w : Good w -> (forall h, ~ alive (mem w) h) -> all_free w.
Proof.
  intros (I & _) D. unfold all_free. rewrite Forall_forall. intros [p|] Hb; [|reflexivity]. exfalso. apply In_nth_error in Hb. destruct Hb as (a & Ea).
  destruct (inv_cnt _ _ I a p Ea) as (_ & Hc). unfold nrefs in Hc. assert (Hin : In (Some a) (vars (mem w))) by (apply (count_occ_In odec); lia). apply In_nth_error in Hin. destruct Hin as (h & Hh).
  apply (D h). exists (pbuf p). rewrite nth_seen, Hh. cbn. rewrite Ea. reflexivity.
Qed.
End Life.
