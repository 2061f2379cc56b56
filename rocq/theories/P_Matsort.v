(* C104: sdf_sort_1d.m sorts the entries of the fields of a struct. Vocabulary: S_Matsort.v *)
From Coq Require Import QArith Lqa Permutation.
From Verif Require Import Base Spec S_Pysdf S_Matsdf S_Matsort M_Pysdf M_Matsort L_Pysdf L_Matsort.
Local Open Scope nat_scope.

(* If every field has l entries and one sorts by fields with one number per
   entry, the function succeeds, and one and the same order, that of these numbers,
   is given to the entries of all fields.  Names and sizes remain. *)
Theorem C104_sort_1d_partial :
  forall (E : Type) (num : E -> Q) (r : record E) (l : nat) (fields : list (list Z)) (ts : list (tensor E)),
    all_entries r l -> fields <> [] ->
    Forall2 (fun name t => get_item r name = Some t /\ length (data t) = l) fields ts ->
    exists r' order, sort_1d num r fields = Ok r' /\ map fst r' = map fst r /\
      sorts (map (fun t => map num (data t)) ts) l order /\
      forall name t, get_item r name = Some t ->
        exists t', get_item r' name = Some t' /\ dims t' = dims t /\ entries_from l (fun a => nth a order 0) t t'.
Proof.
  intros E num r l fields ts [N A] Nf F. unfold sort_1d. rewrite (columns_ok num r l ts [] fields (Forall_nil _) F). cbn [bind app].
  set (cols := map (fun t => map num (data t)) ts).
  assert (Q : match cols with [] => 0 | c :: _ => length c end = l).
  { inversion F as [|n t ns ts' (G & L) F']; subst; [congruence|]. unfold cols. cbn [map]. apply map_length. }
  rewrite Q. set (order := sort_by (row_le cols) l).
  assert (Lo : length order = l) by apply sort_length.
  assert (Io : forall p, In p order -> p < l) by (intros p; apply sort_in).
  assert (Fo : forall name t, In name (map fst r) -> get_item r name = Some t -> exists t', field_1d order t = Ok t').
  { intros name t _ G. destruct (A name t G) as [W (bf & af & Ed & Ll & Fa)]. unfold field_1d. rewrite Ed, (last_big_at bf l af Ll Fa).
    rewrite app_nth2 by lia. replace (length bf - length bf) with 0 by lia. cbn [nth]. rewrite Lo, Nat.eqb_refl. cbn [negb]. eauto. }
  destruct (fields_ok (field_1d order) (map fst r) r N (incl_refl _) Fo) as (r' & Er & Nr & Hr).
  exists r', order. split; [exact Er|]. split; [exact Nr|]. split; [apply sorts_ok|].
  intros name t G. destruct (Hr name t G) as (t' & G' & Ft & _). exists t'. split; [exact G'|].
  specialize (Ft (get_in r name t G)). destruct (A name t G) as [W H]. pose proof (entry_total t l W H) as Lt.
  unfold field_1d in Ft. destruct (last_big 0 (dims t)); [|discriminate Ft]. destruct (negb _); [discriminate Ft|]. injection Ft as <-. cbn [dims data].
  split; [reflexivity|]. rewrite Lo. fold (entry_size t l). split.
  - cbn [data]. rewrite (select_length _ _ _ l Lt Io), Lo. lia.
  - intros a c La Lc. cbn [data]. apply (select_nth _ _ _ l); auto. lia.
Qed.
Print Assumptions C104_sort_1d_partial.

(* Fields with another number of entries, or with one element only, are meant to
   remain as they are, with a warning.  One such field is enough for an error. *)
Theorem C104_other_refuted :
  forall (E : Type) (num : E -> Q) (r : record E) (l : nat) (fields : list (list Z)) (ts : list (tensor E)) name t,
    NoDup (map fst r) -> fields <> [] ->
    Forall2 (fun name t => get_item r name = Some t /\ length (data t) = l) fields ts ->
    get_item r name = Some t -> ~ has_entries t l ->
    sort_1d num r fields = Abort.
Proof.
  intros E num r l fields ts name t N Nf F G H. unfold sort_1d. rewrite (columns_ok num r l ts [] fields (Forall_nil _) F). cbn [bind app].
  set (cols := map (fun t => map num (data t)) ts).
  assert (Q : match cols with [] => 0 | c :: _ => length c end = l).
  { inversion F as [|n0 t0 ns ts' (G0 & L) F']; subst; [congruence|]. unfold cols. cbn [map]. apply map_length. }
  rewrite Q. apply (fields_abort _) with (name := name) (t := t); auto using incl_refl.
  - intros u. unfold field_1d. destruct (last_big 0 (dims u)); [|auto]. destruct (negb _); eauto.
  - apply (get_in r name t G).
  - unfold field_1d. destruct (last_big 0 (dims t)) as [k|] eqn:L; [|reflexivity]. rewrite sort_length. destruct (Nat.eqb_spec (nth k (dims t) 0) l) as [Q'|Q']; [|reflexivity]. exfalso. apply H.
    destruct (last_big_inv _ _ L) as (bf & l' & af & Ed & <- & Ll & Fa). rewrite Ed in Q'. rewrite app_nth2 in Q' by lia. replace (length bf - length bf) with 0 in Q' by lia. cbn [nth] in Q'. subst l'. exists bf, af. auto.
Qed.
Print Assumptions C104_other_refuted.

(* three entries (2, 8), (1, 9), (2, 7), sorted by both numbers; a 2 x 3 matrix
   goes along *)
Example C104_nonvacuous :
  let r := [([120]%Z, mkT [3; 1] [2; 1; 2]%Z); ([121]%Z, mkT [1; 3] [8; 9; 7]%Z); ([122]%Z, mkT [2; 3] [1; 2; 3; 4; 5; 6]%Z)] in
  all_entries r 3 /\
  sort_1d inject_Z r [[120]; [121]]%Z =
    Ok [([120]%Z, mkT [3; 1] [1; 2; 2]%Z); ([121]%Z, mkT [1; 3] [9; 7; 8]%Z); ([122]%Z, mkT [2; 3] [3; 4; 5; 6; 1; 2]%Z)] /\
  sort_1d inject_Z (r ++ [([110]%Z, mkT [1; 1] [5]%Z)]) [[120]; [121]]%Z = Abort.
Proof.
  cbv zeta. split; [|split; reflexivity]. split.
  - repeat constructor; cbn; intuition discriminate.
  - intros name t. cbn [get_item]. repeat (destruct (list_eq_dec Z.eq_dec _ name); [intros [= <-]; split; [reflexivity|]|]); [| | |discriminate].
    + exists [], [1]. repeat constructor.
    + exists [1], []. repeat constructor.
    + exists [2], []. repeat constructor.
Qed.
