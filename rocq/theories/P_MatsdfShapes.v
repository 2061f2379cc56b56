(* C87: values of different shapes under one name.  Vocabulary: S_Sdf.v,
   S_Matsdf.v *)
From Verif Require Import Base Spec S_Sdf S_Pysdf S_Matsdf M_Sdf L_Sdf L_Sdf2 P_Sdf M_Pysdf L_Pysdf M_Matsdf L_Matsdf P_Matsdf.
Import S_Matsdf.
Local Open Scope Z_scope.

(* one more record, of a name that has a field *)
Lemma load_one tag endian depth rs name v old : (2 <= depth)%nat -> Forall mat_record rs -> consistent rs -> rs <> [] -> mat_record (name, v) ->
  values_of rs name <> [] -> old = matlab_of double_bits (values_of rs name) ->
  match mat_cat (let l := length (read_dims v) in if ((1 <? l) || (1 <? nth 0 (msize (matlab_of double_bits [v])) 0))%nat then S l else l) old (matlab_of double_bits [v]) with
  | Ok o => exists d, mat_load tag endian depth (header ++ records (rs ++ [(name, v)])) = Ok d /\ get_item d name = Some o
  | Abort => forall rs', mat_load tag endian depth (header ++ records (rs ++ (name, v) :: rs')) = Abort
  | _ => True
  end.
Proof.
  intros Hdep Hr Hc Hn (g1 & (g2 & g3) & g4 & g5) Hv Ho. cbn [fst snd] in *.
  assert (E : forall rs', records (rs ++ (name, v) :: rs') = records rs ++ concat (dump v name) ++ records rs').
  { intros rs'. unfold records. rewrite flat_map_app, concat_app. cbn [flat_map fst snd]. rewrite concat_app. reflexivity. }
  assert (K : forall rs', exists d fuel, holds d rs /\ mat_load tag endian depth (header ++ records (rs ++ (name, v) :: rs')) =
    (data <- mat_store d name (read_dims v) (matlab_of double_bits [v]) ;; mat_loop depth (S (fuel + length (records rs'))) data (mkM (records rs') 8 (Some false) false))).
  { intros rs'. rewrite E. destruct (load_prefix tag endian depth rs (concat (dump v name) ++ records rs') Hdep Hn Hr Hc) as (d & fuel & Hd & El).
    assert (Lp : (0 < length (concat (dump v name)))%nat) by (pose proof (records_length [(name, v)]) as L; unfold records in L; cbn [flat_map fst snd length] in L; rewrite app_nil_r in L; lia).
    exists d, (fuel + length (concat (dump v name)) - 1)%nat. split; [exact Hd|].
    replace (S (fuel + length (concat (dump v name)) - 1 + length (records rs'))) with (fuel + length (concat (dump v name) ++ records rs'))%nat by (rewrite app_length; lia).
    rewrite El. destruct depth as [|[|depth]]; try lia. cbn [mat_loop at_eof]. rewrite record_ok; [|auto|auto|split; auto]. cbn [bind].
    destruct name as [|c cs] eqn:En; [discriminate g2|]. rewrite <- En in *. reflexivity. }
  assert (St : forall d, holds d rs -> mat_store d name (read_dims v) (matlab_of double_bits [v]) =
    (obj <- mat_cat (let l := length (read_dims v) in if ((1 <? l) || (1 <? nth 0 (msize (matlab_of double_bits [v])) 0))%nat then S l else l) old (matlab_of double_bits [v]) ;; Ok (set_item d name obj))).
  { intros d Hd. unfold mat_store. rewrite Hd. rewrite g2. destruct (values_of rs name) as [|w vs] eqn:Ev; [contradiction|]. rewrite <- Ho. reflexivity. }
  destruct (mat_cat _ _ _) as [o| | |] eqn:Ec; [| |exact I|exact I].
  - destruct (K []) as (d & fuel & Hd & El). rewrite (St d Hd) in El. cbn [bind] in El. exists (set_item d name o). split.
    + rewrite El. destruct depth; [lia|]. apply loop_end.
    + rewrite get_set. destruct (list_eq_dec Z.eq_dec name name); [reflexivity|contradiction].
  - intros rs'. destruct (K rs') as (d & fuel & Hd & El). rewrite (St d Hd) in El. exact El.
Qed.

Lemma doubles_shape ws : ws <> [] -> matlab_of double_bits (map VDouble ws) = MReal (mkT [length ws; 1%nat] ws).
Proof.
  destruct ws as [|w ws]; [contradiction|]. intros _. unfold matlab_of. cbn [map].
  replace (existsb is_complex (VDouble w :: map VDouble ws)) with false by (cbn; induction ws; auto).
  cbn [shape_of stack_dims length]. rewrite map_length. f_equal. f_equal. cbn [map concat reals_of app]. f_equal. induction ws as [|x ws IH]; [reflexivity|]. cbn. f_equal. exact IH.
Qed.

Lemma number_record name z : ok_name name -> mat_name name -> is_word z -> mat_record (name, VDouble z).
Proof. intros H1 H2 H3. repeat split; auto; cbn; try apply H1; try apply H2; auto; apply H3. Qed.

Lemma names_of rs name : Forall mat_record rs -> values_of rs name <> [] -> rs <> [] /\ ok_name name /\ mat_name name.
Proof.
  intros H N. destruct (values_of rs name) as [|v l] eqn:E; [contradiction|]. assert (I : In (name, v) rs) by (apply values_in; rewrite E; left; auto).
  split; [intros ->; contradiction|]. rewrite Forall_forall in H. destruct (H _ I) as (h1 & h2 & _). auto.
Qed.

(* C87 fails for a number written after a vector of the same name: the field is
   what it is when the elements of the vector are written one by one
   (C87_load_partial), and nothing is reported. *)
Theorem C87_number_after_vector_refuted : forall tag endian depth rs name l z,
  (2 <= depth)%nat -> Forall mat_record rs -> consistent rs -> (2 <= length l)%nat -> is_word z ->
  values_of rs name = [VR (mkST [Z.of_nat (length l)] l)] ->
  exists d, mat_load tag endian depth (header ++ records (rs ++ [(name, VDouble z)])) = Ok d /\
    get_item d name = Some (matlab_of double_bits (map VDouble (l ++ [z]))).
Proof.
  intros tag endian depth rs name l z Hdep Hr Hc Hl Hz Hv. destruct (names_of rs name Hr) as (Hn & N1 & N2); [rewrite Hv; discriminate|].
  pose proof (load_one tag endian depth rs name (VDouble z) _ Hdep Hr Hc Hn (number_record _ _ N1 N2 Hz) ltac:(rewrite Hv; discriminate) eq_refl) as H.
  rewrite Hv in H. replace (mat_cat _ _ _) with (Ok (matlab_of double_bits (map VDouble (l ++ [z])))) in H; [exact H|].
  rewrite doubles_shape by (destruct l; discriminate). unfold matlab_of. cbn [existsb is_complex orb shape_of sdims map length]. rewrite Nat2Z.id.
  assert (S1 : stack_dims [length l] 1 = [length l; 1%nat]) by (destruct l as [|a [|b l]]; [cbn in Hl; lia|cbn in Hl; lia|reflexivity]). rewrite S1.
  cbn [concat reals_of selts]. rewrite app_nil_r. cbn [stack_dims read_dims length msize dims nth Nat.ltb Nat.leb orb]. unfold mat_cat. cbn [Nat.eqb msize dims].
  destruct (list_eq_dec Nat.eq_dec [length l; 1%nat] [0; 0]%nat) as [X|_]; [discriminate X|].
  destruct (list_eq_dec Nat.eq_dec [1; 1]%nat [0; 0]%nat) as [X|_]; [discriminate X|].
  unfold cat_dims. cbn [length Nat.max seq forallb Nat.sub Nat.eqb orb nth andb map strip strip_ones bind data]. rewrite ?app_nil_r, app_length. reflexivity.
Qed.
Print Assumptions C87_number_after_vector_refuted.

(* C87 fails for a vector written after a matrix with as many rows: it becomes
   one more column, as if the columns had been written one by one. *)
Theorem C87_vector_after_matrix_refuted : forall tag endian depth rs name n cols c,
  (2 <= depth)%nat -> Forall mat_record rs -> consistent rs -> (2 <= n)%nat -> (2 <= length cols)%nat -> Forall (fun c => length c = n) cols ->
  mat_record (name, VR (mkST [Z.of_nat n] c)) ->
  values_of rs name = [VR (mkST [Z.of_nat n; Z.of_nat (length cols)] (concat cols))] ->
  exists d, mat_load tag endian depth (header ++ records (rs ++ [(name, VR (mkST [Z.of_nat n] c))])) = Ok d /\
    get_item d name = Some (matlab_of double_bits (map (fun c => VR (mkST [Z.of_nat n] c)) (cols ++ [c]))).
Proof.
  intros tag endian depth rs name n cols c Hdep Hr Hc Hn2 Hk Hcols Hrec Hv. destruct (names_of rs name Hr) as (Hn & _); [rewrite Hv; discriminate|].
  pose proof (load_one tag endian depth rs name _ _ Hdep Hr Hc Hn Hrec ltac:(rewrite Hv; discriminate) eq_refl) as H.
  rewrite Hv in H.
  assert (S1 : forall k, stack_dims [n] k = [n; k]) by (intros k; destruct n as [|[|n]]; [lia|lia|reflexivity]).
  assert (ER : matlab_of double_bits (map (fun c => VR (mkST [Z.of_nat n] c)) (cols ++ [c])) = MReal (mkT [n; (length cols + 1)%nat] (concat cols ++ c))).
  { set (f := fun c : list Z => VR (mkST [Z.of_nat n] c)).
    assert (E1 : forall l, existsb is_complex (map f l) = false) by (induction l; auto).
    assert (E2 : forall l, concat (map (reals_of double_bits) (map f l)) = concat l) by (induction l as [|x l IH]; [reflexivity|cbn; f_equal; exact IH]).
    assert (E3 : matlab_of double_bits (map f (cols ++ [c])) = MReal (mkT (stack_dims [n] (length (map f (cols ++ [c])))) (concat (map (reals_of double_bits) (map f (cols ++ [c])))))).
    { destruct cols as [|c0 cols]; [cbn in Hk; lia|]. unfold matlab_of. cbn [app map]. change (f c0 :: map f (cols ++ [c])) with (map f (c0 :: cols ++ [c])). rewrite E1. unfold f at 1. cbn [shape_of sdims map]. rewrite Nat2Z.id. reflexivity. }
    rewrite E3, E2, map_length, app_length, S1, concat_app. cbn [concat length]. rewrite app_nil_r. reflexivity. }
  replace (mat_cat _ _ _) with (Ok (matlab_of double_bits (map (fun c => VR (mkST [Z.of_nat n] c)) (cols ++ [c])))) in H; [exact H|].
  rewrite ER. unfold matlab_of. cbn [existsb is_complex orb shape_of sdims map length]. rewrite !Nat2Z.id, S1.
  assert (S2 : stack_dims [n; length cols] 1 = [n; length cols]).
  { unfold stack_dims. destruct n as [|[|n]]; [lia|lia|]. destruct (list_eq_dec Nat.eq_dec _ _) as [X|_]; [discriminate X|reflexivity]. }
  rewrite S2. cbn [concat reals_of selts]. rewrite !app_nil_r. cbn [read_dims sdims length msize dims nth Nat.ltb Nat.leb orb].
  replace (match n with 0%nat => false | S m' => match m' with 0%nat => false | S _ => true end end) with true by (destruct n as [|[|n]]; [lia|lia|reflexivity]).
  unfold mat_cat. cbn [Nat.eqb msize dims].
  destruct (list_eq_dec Nat.eq_dec [n; length cols] [0; 0]%nat) as [X|_]; [injection X; lia|].
  destruct (list_eq_dec Nat.eq_dec [n; 1%nat] [0; 0]%nat) as [X|_]; [discriminate X|].
  unfold cat_dims. cbn [length Nat.max seq forallb Nat.sub Nat.eqb orb nth andb map]. rewrite Nat.eqb_refl. cbn [andb strip strip_ones bind data]. reflexivity.
Qed.
Print Assumptions C87_vector_after_matrix_refuted.

(* A vector after numbers, unless there are as many as it has elements, makes the
   whole file unreadable. *)
Theorem C87_vector_after_numbers_refuted : forall tag endian depth rs name ws l rs',
  (2 <= depth)%nat -> Forall mat_record rs -> consistent rs -> (2 <= length l)%nat -> ws <> [] -> length ws <> length l ->
  mat_record (name, VR (mkST [Z.of_nat (length l)] l)) -> values_of rs name = map VDouble ws ->
  mat_load tag endian depth (header ++ records (rs ++ (name, VR (mkST [Z.of_nat (length l)] l)) :: rs')) = Abort.
Proof.
  intros tag endian depth rs name ws l rs' Hdep Hr Hc Hl Hw Hne Hrec Hv.
  assert (Hv0 : values_of rs name <> []) by (rewrite Hv; destruct ws; [contradiction|discriminate]).
  destruct (names_of rs name Hr Hv0) as (Hn & _).
  pose proof (load_one tag endian depth rs name _ _ Hdep Hr Hc Hn Hrec Hv0 eq_refl) as H. rewrite Hv, doubles_shape in H by auto.
  replace (mat_cat _ _ _) with (Abort : outcome mobj) in H; [apply H|].
  unfold matlab_of. cbn [existsb is_complex orb shape_of sdims map length]. rewrite Nat2Z.id.
  assert (S1 : stack_dims [length l] 1 = [length l; 1%nat]) by (destruct l as [|a [|b l]]; [cbn in Hl; lia|cbn in Hl; lia|reflexivity]). rewrite S1.
  cbn [concat reals_of selts read_dims sdims length msize dims nth].
  replace ((1 <? 1)%nat || (1 <? length l)%nat) with true by lia. unfold mat_cat. cbn [Nat.eqb msize dims].
  destruct (list_eq_dec Nat.eq_dec [length ws; 1%nat] [0; 0]%nat) as [X|_]; [discriminate X|].
  destruct (list_eq_dec Nat.eq_dec [length l; 1%nat] [0; 0]%nat) as [X|_]; [discriminate X|].
  unfold cat_dims. cbn [length Nat.max seq forallb Nat.sub Nat.eqb orb nth andb]. replace (length ws =? length l)%nat with false by (symmetry; apply Nat.eqb_neq; auto). reflexivity.
Qed.
Print Assumptions C87_vector_after_numbers_refuted.

(* So does a matrix after one vector, or after several unless the columns are as
   many, whatever the rows are. *)
Theorem C87_matrix_after_vectors_refuted : forall tag endian depth rs name n vs r k l rs',
  (2 <= depth)%nat -> Forall mat_record rs -> consistent rs -> (2 <= n)%nat -> vs <> [] -> (2 <= r)%nat -> (1 <= k)%nat -> length vs <> k ->
  mat_record (name, VR (mkST [Z.of_nat r; Z.of_nat k] l)) -> values_of rs name = map (fun c => VR (mkST [Z.of_nat n] c)) vs ->
  mat_load tag endian depth (header ++ records (rs ++ (name, VR (mkST [Z.of_nat r; Z.of_nat k] l)) :: rs')) = Abort.
Proof.
  intros tag endian depth rs name n vs r k l rs' Hdep Hr Hc Hn2 Hw Hr2 Hk Hne Hrec Hv.
  assert (Hv0 : values_of rs name <> []) by (rewrite Hv; destruct vs; [contradiction|discriminate]).
  destruct (names_of rs name Hr Hv0) as (Hn & _).
  pose proof (load_one tag endian depth rs name _ _ Hdep Hr Hc Hn Hrec Hv0 eq_refl) as H. rewrite Hv in H.
  replace (mat_cat _ _ _) with (Abort : outcome mobj) in H; [apply H|].
  assert (S1 : forall j, stack_dims [n] j = [n; j]) by (intros j; destruct n as [|[|n]]; [lia|lia|reflexivity]).
  assert (EV : exists xs, matlab_of double_bits (map (fun c => VR (mkST [Z.of_nat n] c)) vs) = MReal (mkT [n; length vs] xs)).
  { set (f := fun c : list Z => VR (mkST [Z.of_nat n] c)). assert (E1 : forall l, existsb is_complex (map f l) = false) by (induction l0; auto).
    destruct vs as [|c0 vs]; [contradiction|]. eexists. unfold matlab_of. cbn [map]. change (f c0 :: map f vs) with (map f (c0 :: vs)). rewrite E1. unfold f at 1. cbn [shape_of sdims map].
    rewrite Nat2Z.id, S1. cbn [length]. rewrite map_length. reflexivity. }
  destruct EV as (xs & EV). rewrite EV. unfold matlab_of. cbn [existsb is_complex orb shape_of sdims map length]. rewrite !Nat2Z.id.
  assert (S2 : stack_dims [r; k] 1 = [r; k]).
  { unfold stack_dims. destruct r as [|[|r]]; [lia|lia|]. destruct (list_eq_dec Nat.eq_dec _ _) as [X|_]; [discriminate X|reflexivity]. }
  rewrite S2. cbn [read_dims sdims length msize dims nth Nat.ltb Nat.leb orb]. unfold mat_cat. cbn [Nat.eqb msize dims].
  destruct (list_eq_dec Nat.eq_dec [n; length vs] [0; 0]%nat) as [X|_]; [injection X; lia|].
  destruct (list_eq_dec Nat.eq_dec [r; k] [0; 0]%nat) as [X|_]; [injection X; lia|].
  unfold cat_dims. cbn [length Nat.max seq forallb Nat.sub Nat.eqb orb nth andb]. replace (length vs =? k)%nat with false by (symmetry; apply Nat.eqb_neq; auto). rewrite andb_false_r. reflexivity.
Qed.
Print Assumptions C87_matrix_after_vectors_refuted.

(* a vector and a number; a matrix and a vector; a number and a vector;
   a vector and a matrix *)
Example C87_shapes_meet :
  mat_load 4 None 2 (header ++ records [([118], VR (mkST [2] [5; 6])); ([118], VDouble 7)]) = Ok [([118], MReal (mkT [3; 1]%nat [5; 6; 7]))] /\
  mat_load 4 None 2 (header ++ records [([118], VDouble 5); ([118], VDouble 6); ([118], VDouble 7)]) = Ok [([118], MReal (mkT [3; 1]%nat [5; 6; 7]))] /\
  mat_load 4 None 2 (header ++ records [([118], VR (mkST [2; 2] [5; 6; 7; 8])); ([118], VR (mkST [2] [1; 2]))]) = Ok [([118], MReal (mkT [2; 3]%nat [5; 6; 7; 8; 1; 2]))] /\
  mat_load 4 None 2 (header ++ records [([118], VDouble 7); ([118], VR (mkST [2] [5; 6]))]) = Abort /\
  mat_load 4 None 2 (header ++ records [([118], VR (mkST [2] [5; 6])); ([118], VR (mkST [2; 2] [5; 6; 7; 8]))]) = Abort /\
  (let rs := [([118], VR (mkST [2] [5; 6]))] in Forall mat_record rs /\ consistent rs /\ values_of rs [118] = [VR (mkST [Z.of_nat (length [5; 6])] [5; 6])]).
Proof.
  do 5 (split; [vm_compute; reflexivity|]). split; [|split; [|reflexivity]].
  - assert (N : ok_name [118] /\ mat_name [118]).
    { split; [split; [cbn; lia|repeat constructor; unfold is_byte; lia]|]. split; [|discriminate]. unfold valid_field, is_letter. cbn. lia. }
    destruct N as [N1 N2]. constructor; [|constructor]. split; [exact N1|]. split; [exact N2|]. cbn. unfold ok_tensor, mat_shape, is_long, is_word. cbn. repeat split; repeat constructor; lia.
  - intros name v vs. unfold values_of. cbn [filter fst]. destruct (list_eq_dec Z.eq_dec [118] name); cbn; intros H; [injection H as <- <-|discriminate H]. split; [constructor|]. contradiction.
Qed.
