(* C105: sdf_sort_2d.m makes matrices of the entries of a scan over two
   parameters. Vocabulary: S_Matsort.v *)
From Coq Require Import QArith Lqa Permutation.
From Verif Require Import Base Spec S_Pysdf S_Matsdf S_Matsort M_Pysdf M_Matsort L_Pysdf L_Matsort L_Matgrid.
Local Open Scope nat_scope.

Lemma sort_2d_grid {E} (num : E -> Q) (r : record E) fieldx fieldy (tx ty : tensor E) (xs ys : list Q) (gx gy : nat -> nat) args rows cols :
  all_entries r (length xs * length ys) -> get_item r fieldx = Some tx -> get_item r fieldy = Some ty ->
  is_vector tx (length xs * length ys) -> dims ty = dims tx ->
  increasing xs -> increasing ys -> 2 <= length xs -> 2 <= length ys -> even ys ->
  on_grid xs ys gx gy (map num (data tx)) (map num (data ty)) ->
  shape_2d (shifted (map num (data tx))) (length xs * length ys) args = Ok (rows, cols) ->
  exists r', sort_2d num r fieldx fieldy args = Ok r' /\ map fst r' = map fst r /\
    forall name t, get_item r name = Some t ->
      exists t', get_item r' name = Some t' /\ grid_dims (length xs * length ys) rows cols (dims t) (dims t') /\
        length (data t') = length (data t) /\
        forall p c, p < length xs * length ys -> c < entry_size t (length xs * length ys) ->
          nth_error (data t') (c + entry_size t (length xs * length ys) * (gx p + length xs * gy p)) =
          nth_error (data t) (c + entry_size t (length xs * length ys) * p).
Proof.
  intros [N A] Gx Gy V Ed Ix Iy Nx Ny Ev G Sh. set (l := length xs * length ys) in *.
  destruct (grid_order xs ys gx gy _ _ Ix Iy G ltac:(lia) ltac:(lia) Nx Ny Ev) as (order & Eo & Lo & Io & Ho). fold l in Lo, Io, Ho.
  assert (Lx : length (data tx) = l) by (destruct G as (Q & _); rewrite map_length in Q; exact Q).
  unfold sort_2d, getfield. rewrite Gx, Gy. cbn [bind].
  replace (negb (existsb (fun d => d =? 1) (dims tx) && _ && _ && _)) with false
    by (symmetry; rewrite Ed; destruct V as [-> | ->]; cbn [existsb length Nat.eqb]; rewrite ?orb_true_r; destruct (l =? 1); reflexivity).
  destruct (list_eq_dec Nat.eq_dec (dims tx) (dims ty)) as [_|Q]; [|congruence]. cbn [negb].
  destruct (Nat.eqb_spec (length (data tx)) 0) as [Q|_]; [exfalso; unfold l in Lx; nia|]. rewrite Eo. cbn [bind].
  rewrite shifted_length, map_length, Lx, Sh. cbn [bind].
  assert (Fo : forall name t, In name (map fst r) -> get_item r name = Some t -> exists t', field_2d order rows cols t = Ok t').
  { intros name t _ Gt. destruct (A name t Gt) as [W (bf & af & Ed' & Ll & Fa)]. unfold field_2d. rewrite Ed', (last_big_at bf l af Ll Fa).
    rewrite app_nth2 by lia. replace (length bf - length bf) with 0 by lia. cbn [nth]. rewrite Lo, Nat.eqb_refl. cbn [negb]. eauto. }
  destruct (fields_ok _ (map fst r) r N (incl_refl _) Fo) as (r' & Er & Nr & Hr). exists r'. split; [exact Er|]. split; [exact Nr|].
  intros name t Gt. destruct (Hr name t Gt) as (t' & G' & Ft & _). exists t'. split; [exact G'|]. specialize (Ft (get_in r name t Gt)).
  destruct (A name t Gt) as [W H]. pose proof (entry_total t l W H) as Lt. destruct H as (bf & af & Ed' & Ll & Fa).
  unfold field_2d in Ft. rewrite Ed', (last_big_at bf l af Ll Fa) in Ft. destruct (negb _); [discriminate Ft|]. injection Ft as <-. cbn [dims data]. rewrite Lo. fold (entry_size t l).
  split; [exists bf, af; split; [exact Ed'|]; split; [exact Fa|]|]. { rewrite firstn_app, firstn_all, Nat.sub_diag. cbn [firstn]. rewrite app_nil_r. reflexivity. }
  split; [rewrite (select_length _ _ _ l Lt Io), Lo; lia|]. intros p c Lp Lc.
  assert (Lr : gx p + length xs * gy p < length order) by (rewrite Lo; apply (rank_bound xs ys gx gy _ _ G p Lp)).
  rewrite (select_nth _ _ _ l _ c Lt Io Lr Lc), (Ho p Lp). reflexivity.
Qed.

(* A grid of n1 = length xs times n2 = length ys points, measured in any order,
   with steps of the second parameter that do not differ too much: if the number
   of rows is given, or the grid is square, every field gets the dimensions
   ... n1 n2, and its entry (i, j) is that of the i-th x and the j-th y. *)
Theorem C105_grid_partial :
  forall (E : Type) (num : E -> Q) (r : record E) fieldx fieldy (tx ty : tensor E) (xs ys : list Q) (gx gy : nat -> nat) args,
    let l := length xs * length ys in
    all_entries r l -> get_item r fieldx = Some tx -> get_item r fieldy = Some ty ->
    is_vector tx l -> dims ty = dims tx ->
    increasing xs -> increasing ys -> 2 <= length xs -> 2 <= length ys -> even ys ->
    on_grid xs ys gx gy (map num (data tx)) (map num (data ty)) ->
    (args = Some (length xs, Some (length ys)) \/ args = Some (length xs, None) \/ args = None /\ length xs = length ys) ->
    exists r', sort_2d num r fieldx fieldy args = Ok r' /\ map fst r' = map fst r /\
      forall name t, get_item r name = Some t ->
        exists t', get_item r' name = Some t' /\ grid_dims l (length xs) (length ys) (dims t) (dims t') /\
          length (data t') = length (data t) /\
          forall p c, p < l -> c < entry_size t l ->
            nth_error (data t') (c + entry_size t l * (gx p + length xs * gy p)) = nth_error (data t) (c + entry_size t l * p).
Proof.
  intros E num r fieldx fieldy tx ty xs ys gx gy args l A Gx Gy V Ed Ix Iy Nx Ny Ev G Ha. unfold l in *. clear l.
  apply (sort_2d_grid num r fieldx fieldy tx ty xs ys gx gy args (length xs) (length ys)); auto.
  destruct Ha as [->|[->|(-> & Q)]]; unfold shape_2d.
  - rewrite Nat.mul_comm, Nat.eqb_refl. reflexivity.
  - destruct (Nat.eqb_spec (length xs) 0); [lia|]. rewrite Nat.mul_comm, Nat.mod_mul by lia. cbn [Nat.eqb]. rewrite Nat.div_mul by lia. reflexivity.
  - rewrite (count_x xs ys gx gy _ _ Ix G ltac:(lia) ltac:(lia)). destruct (Nat.eqb_spec (length ys) 0); [lia|]. rewrite Nat.mod_mul by lia. cbn [Nat.eqb]. rewrite Nat.div_mul by lia. rewrite Q. reflexivity.
Qed.
Print Assumptions C105_grid_partial.

(* Without the number of rows the function takes n2 rows and n1 columns for the
   same sequence of entries: the i-th x and j-th y are no longer at (i, j), nor
   at (j, i), unless n1 = n2 *)
Theorem C105_rows_refuted :
  forall (E : Type) (num : E -> Q) (r : record E) fieldx fieldy (tx ty : tensor E) (xs ys : list Q) (gx gy : nat -> nat),
    let l := length xs * length ys in
    all_entries r l -> get_item r fieldx = Some tx -> get_item r fieldy = Some ty ->
    is_vector tx l -> dims ty = dims tx ->
    increasing xs -> increasing ys -> 2 <= length xs -> 2 <= length ys -> even ys ->
    on_grid xs ys gx gy (map num (data tx)) (map num (data ty)) ->
    exists r', sort_2d num r fieldx fieldy None = Ok r' /\
      forall name t, get_item r name = Some t ->
        exists t', get_item r' name = Some t' /\ grid_dims l (length ys) (length xs) (dims t) (dims t') /\
          forall p c, p < l -> c < entry_size t l ->
            nth_error (data t') (c + entry_size t l * (gx p + length xs * gy p)) = nth_error (data t) (c + entry_size t l * p).
Proof.
  intros E num r fieldx fieldy tx ty xs ys gx gy l A Gx Gy V Ed Ix Iy Nx Ny Ev G. unfold l in *. clear l.
  destruct (sort_2d_grid num r fieldx fieldy tx ty xs ys gx gy None (length ys) (length xs)) as (r' & Er & _ & H); auto.
  - unfold shape_2d. rewrite (count_x xs ys gx gy _ _ Ix G ltac:(lia) ltac:(lia)). destruct (Nat.eqb_spec (length ys) 0); [lia|]. rewrite Nat.mod_mul by lia. cbn [Nat.eqb]. rewrite Nat.div_mul by lia. reflexivity.
  - exists r'. split; [exact Er|]. intros name t Gt. destruct (H name t Gt) as (t' & G' & Gd & _ & K). eauto.
Qed.
Print Assumptions C105_rows_refuted.

(* two x and three y: the x are neither the same in every row nor in every column *)
Theorem C105_rows_witness_refuted :
  exists r r' t, all_entries r 6 /\
    on_grid [0; 1]%Q [0; 1; 2]%Q (fun p => p mod 2) (fun p => p / 2) (map inject_Z [0; 1; 0; 1; 0; 1]%Z) (map inject_Z [0; 0; 1; 1; 2; 2]%Z) /\
    get_item r [120]%Z = Some (mkT [6; 1] [0; 1; 0; 1; 0; 1]%Z) /\ get_item r [121]%Z = Some (mkT [6; 1] [0; 0; 1; 1; 2; 2]%Z) /\
    sort_2d inject_Z r [120]%Z [121]%Z None = Ok r' /\ get_item r' [120]%Z = Some t /\
    dims t = [3; 2] /\ nth_error (data t) 0 <> nth_error (data t) 1 /\ nth_error (data t) 0 <> nth_error (data t) 3.
Proof.
  exists [([120]%Z, mkT [6; 1] [0; 1; 0; 1; 0; 1]%Z); ([121]%Z, mkT [6; 1] [0; 0; 1; 1; 2; 2]%Z)].
  eexists. eexists. split; [|split; [|split; [reflexivity|]; split; [reflexivity|]; split; [vm_compute; reflexivity|]; split; [vm_compute; reflexivity|]; cbn [dims data nth_error]; split; [reflexivity|]; split; discriminate]].
  - split; [repeat constructor; cbn; intuition discriminate|]. intros name t. cbn [get_item]. repeat (destruct (list_eq_dec Z.eq_dec _ name); [intros [= <-]; split; [reflexivity|]|]); [| |discriminate]; exists [], [1]; repeat constructor.
  - split; [reflexivity|]. split; [reflexivity|]. split.
    + intros p Lp. cbn [length Nat.mul Nat.add] in Lp. do 6 (destruct p as [|p]; [cbn; repeat split; lia || reflexivity|]). lia.
    + intros p q Lp Lq. cbn [length Nat.mul Nat.add] in Lp, Lq. do 6 (destruct p as [|p]; [do 6 (destruct q as [|q]; [cbn; intros; congruence|]); lia|]). lia.
Qed.
Print Assumptions C105_rows_witness_refuted.

(* y = 0, 10, 11: the steps differ too much, and entries of the second and third y are mixed *)
Theorem C105_steps_refuted :
  exists r r' t, all_entries r 6 /\ increasing [0; 1]%Q /\ increasing [0; 10; 11]%Q /\
    on_grid [0; 1]%Q [0; 10; 11]%Q (fun p => p mod 2) (fun p => p / 2) (map inject_Z [0; 1; 0; 1; 0; 1]%Z) (map inject_Z [0; 0; 10; 10; 11; 11]%Z) /\
    get_item r [120]%Z = Some (mkT [6; 1] [0; 1; 0; 1; 0; 1]%Z) /\ get_item r [121]%Z = Some (mkT [6; 1] [0; 0; 10; 10; 11; 11]%Z) /\
    sort_2d inject_Z r [120]%Z [121]%Z (Some (2, Some 3)) = Ok r' /\ get_item r' [121]%Z = Some t /\
    t = mkT [2; 3] [0; 0; 10; 11; 10; 11]%Z.
Proof.
  exists [([120]%Z, mkT [6; 1] [0; 1; 0; 1; 0; 1]%Z); ([121]%Z, mkT [6; 1] [0; 0; 10; 10; 11; 11]%Z)].
  eexists. eexists. split; [|split; [|split; [|split; [|split; [reflexivity|]; split; [reflexivity|]; split; [vm_compute; reflexivity|]; split; [vm_compute; reflexivity|]; reflexivity]]]].
  - split; [repeat constructor; cbn; intuition discriminate|]. intros name t. cbn [get_item]. repeat (destruct (list_eq_dec Z.eq_dec _ name); [intros [= <-]; split; [reflexivity|]|]); [| |discriminate]; exists [], [1]; repeat constructor.
  - intros i j L. cbn [length] in L. destruct i as [|[|i]], j as [|[|j]]; try lia; reflexivity.
  - intros i j L. cbn [length] in L. destruct i as [|[|[|i]]], j as [|[|[|j]]]; try lia; reflexivity.
  - split; [reflexivity|]. split; [reflexivity|]. split.
    + intros p Lp. cbn [length Nat.mul Nat.add] in Lp. do 6 (destruct p as [|p]; [cbn; repeat split; lia || reflexivity|]). lia.
    + intros p q Lp Lq. cbn [length Nat.mul Nat.add] in Lp, Lq. do 6 (destruct p as [|p]; [do 6 (destruct q as [|q]; [cbn; intros; congruence|]); lia|]). lia.
Qed.
Print Assumptions C105_steps_refuted.

(* If all x are the same nothing is sorted; if all y are the same there is an error *)
Theorem C105_one_x_refuted :
  exists r, all_entries r 2 /\ get_item r [120]%Z = Some (mkT [2; 1] [5; 5]%Z) /\ get_item r [121]%Z = Some (mkT [2; 1] [2; 1]%Z) /\
    sort_2d inject_Z r [120]%Z [121]%Z (Some (1, Some 2)) = Ok [([120]%Z, mkT [1; 2] [5; 5]%Z); ([121]%Z, mkT [1; 2] [2; 1]%Z)].
Proof.
  exists [([120]%Z, mkT [2; 1] [5; 5]%Z); ([121]%Z, mkT [2; 1] [2; 1]%Z)]. split; [|repeat split; vm_compute; reflexivity].
  split; [repeat constructor; cbn; intuition discriminate|]. intros name t. cbn [get_item]. repeat (destruct (list_eq_dec Z.eq_dec _ name); [intros [= <-]; split; [reflexivity|]|]); [| |discriminate]; exists [], [1]; repeat constructor.
Qed.
Print Assumptions C105_one_x_refuted.
Theorem C105_one_y_refuted :
  forall (E : Type) (num : E -> Q) (r : record E) fieldx fieldy (tx ty : tensor E) l v args,
    get_item r fieldx = Some tx -> get_item r fieldy = Some ty -> is_vector tx l -> dims ty = dims tx ->
    Forall (fun w => num w == v)%Q (data ty) -> sort_2d num r fieldx fieldy args = Abort.
Proof.
  intros E num r fieldx fieldy tx ty l v args Gx Gy V Ed F. unfold sort_2d, getfield. rewrite Gx, Gy. cbn [bind].
  replace (negb (existsb (fun d => d =? 1) (dims tx) && _ && _ && _)) with false
    by (symmetry; rewrite Ed; destruct V as [-> | ->]; cbn [existsb length Nat.eqb]; rewrite ?orb_true_r; destruct (l =? 1); reflexivity).
  destruct (list_eq_dec Nat.eq_dec (dims tx) (dims ty)) as [_|Q]; [|congruence]. cbn [negb].
  destruct (length (data tx) =? 0); [reflexivity|]. unfold order_2d. replace (filter _ (shifted (map num (data ty)))) with (@nil Q); [reflexivity|]. symmetry.
  assert (K : forall w, In w (shifted (map num (data ty))) -> (w == 0)%Q).
  { intros w Iw. unfold shifted in Iw. apply in_map_iff in Iw. destruct Iw as (u & <- & Iu). assert (D : map num (data ty) <> []) by (intros Q; rewrite Q in Iu; exact Iu).
    destruct (qmin_spec _ D) as (Im & _). rewrite Forall_forall in F. apply in_map_iff in Iu, Im. destruct Iu as (e & <- & Ie), Im as (e' & <- & Ie').
    pose proof (F e Ie). pose proof (F e' Ie'). lra. }
  revert K. generalize (shifted (map num (data ty))) as z. induction z as [|w z IH]; intros K; [reflexivity|]. cbn [filter].
  rewrite (proj2 (Qeq_bool_iff w 0) (K w (or_introl eq_refl))). cbn [negb]. apply IH. intros u Iu. apply K. right; auto.
Qed.
Print Assumptions C105_one_y_refuted.

(* a grid of 2 x 3 points in disorder, with a row of values *)
Example C105_nonvacuous :
  let x := mkT [6; 1] [1; 0; 0; 1; 1; 0]%Z in
  let y := mkT [6; 1] [5; 3; 5; 9; 3; 9]%Z in
  let r := [([120]%Z, x); ([121]%Z, y); ([122]%Z, mkT [1; 6] [12; 1; 2; 13; 11; 3]%Z)] in
  let gx := fun p => nth p [1; 0; 0; 1; 1; 0] 0 in
  let gy := fun p => nth p [1; 0; 1; 2; 0; 2] 0 in
  all_entries r 6 /\ increasing [0; 1]%Q /\ increasing [3; 5; 9]%Q /\ even [3; 5; 9]%Q /\
  on_grid [0; 1]%Q [3; 5; 9]%Q gx gy (map inject_Z (data x)) (map inject_Z (data y)) /\
  sort_2d inject_Z r [120]%Z [121]%Z (Some (2, None)) =
    Ok [([120]%Z, mkT [2; 3] [0; 1; 0; 1; 0; 1]%Z); ([121]%Z, mkT [2; 3] [3; 3; 5; 5; 9; 9]%Z); ([122]%Z, mkT [1; 2; 3] [1; 11; 2; 12; 3; 13]%Z)].
Proof.
  cbv zeta. split; [|split; [|split; [|split; [|split; [|vm_compute; reflexivity]]]]].
  - split; [repeat constructor; cbn; intuition discriminate|]. intros name t. cbn [get_item]. repeat (destruct (list_eq_dec Z.eq_dec _ name); [intros [= <-]; split; [reflexivity|]|]); [| | |discriminate].
    + exists [], [1]; repeat constructor.
    + exists [], [1]; repeat constructor.
    + exists [1], []; repeat constructor.
  - intros i j L. cbn [length] in L. destruct i as [|[|i]], j as [|[|j]]; try lia; reflexivity.
  - intros i j L. cbn [length] in L. destruct i as [|[|[|i]]], j as [|[|[|j]]]; try lia; reflexivity.
  - intros j L. cbn [length] in L. destruct j as [|[|j]]; try lia; reflexivity.
  - split; [reflexivity|]. split; [reflexivity|]. split.
    + intros p Lp. cbn [length Nat.mul Nat.add] in Lp. do 6 (destruct p as [|p]; [cbn; repeat split; lia || reflexivity|]). lia.
    + intros p q Lp Lq. cbn [length Nat.mul Nat.add] in Lp, Lq. do 6 (destruct p as [|p]; [do 6 (destruct q as [|q]; [cbn; intros; congruence|]); lia|]). lia.
Qed.
