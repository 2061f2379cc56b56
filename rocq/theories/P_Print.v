(* Property C78: the text output of vectors, tensors and matrices. *)
From Coq Require Import Ascii String.
From Verif Require Import Base Spec S_Reduce S_Sparse S_Print M_Tensor M_Sparse M_Print L_Lin L_Tensor L_Fold L_Sparse L_Sparse7 L_Print.
Local Open Scope nat_scope.

(* The text of a vector and of a tensor: the elements in the order of storage,
   after the dimensions, in brackets and separated by commas. *)
Theorem C78_vector : forall A (show : A -> text) s (v : list A),
  print_vector show s v = s ++ lit "[" ++ join (lit ", ") (map show v) ++ lit "]".
Proof. intros. apply print_vector_ok. Qed.
Print Assumptions C78_vector.

Theorem C78_tensor : forall A show_index (show : A -> text) s (t : tensor A),
  print_tensor show_index show s t =
  s ++ lit "([" ++ join (lit ", ") (map show_index (dims t)) ++ lit "])/[" ++ join (lit ", ") (map show (data t)) ++ lit "]".
Proof. intros. apply print_tensor_ok. Qed.
Print Assumptions C78_tensor.

(* The text tells tensors apart: tensors with the same text have the same
   dimensions, and elements with the same texts at the same places, when the text
   of an element is neither empty nor contains a comma followed by a space. *)
Theorem C78_determines : forall A (show : A -> text) s (a b : tensor A),
  wf a -> wf b ->
  (forall x, In x (data a ++ data b) -> clean ", " (show x)) ->
  print_tensor decimal show s a = print_tensor decimal show s b ->
  dims a = dims b /\ forall ix, option_map show (elt a ix) = option_map show (elt b ix).
Proof.
  intros A show s a b Wa Wb Hc E. destruct (print_tensor_inj show s a b Hc E) as [Ed Em]. split; [exact Ed|].
  intros ix. unfold elt. rewrite Ed. destruct (validb (dims b) ix); [|reflexivity]. rewrite <- !nth_error_map, Em. reflexivity.
Qed.
Print Assumptions C78_determines.

(* A sparse matrix is written as the tensor with the same entries. *)
Theorem C78_sparse : forall A (N : numops A) junk (show : A -> text) s (m : sparse A),
  wf_sparse m ->
  exists t, wf t /\ dims t = [srows m; scols m] /\
    (forall i j, i < srows m -> j < scols m -> elt t [i; j] = Some (entry (nzero N) m i j)) /\
    print_sparse decimal show N junk s m = Ok (print_tensor decimal show s t) /\
    display_sparse show N junk s m = display show s t.
Proof.
  intros A N junk show s m W. destruct (full_elts N junk m W) as (t & Et & Wt & Dt & Ht).
  exists t. unfold print_sparse, display_sparse. rewrite Et. cbn [bind]. auto.
Qed.
Print Assumptions C78_sparse.

(* A complex number is written as its two parts, which the text determines when
   the texts of real numbers contain no space and are different for different
   numbers. *)
Theorem C78_complex : forall R (show : R -> text) s (z w : R * R),
  print_complex show s z = s ++ show (fst z) ++ lit " " ++ show (snd z) /\
  ((forall x, ~ In " "%char (show x)) -> (forall x y, show x = show y -> x = y) ->
   print_complex show s z = print_complex show s w -> z = w).
Proof.
  intros R show s z w.
  assert (E : forall z, print_complex show s z = s ++ show (fst z) ++ lit " " ++ show (snd z)) by (intros; unfold print_complex; rewrite <- !app_assoc; reflexivity).
  split; [apply E|]. intros H Hi Ez. rewrite !E in Ez. apply app_inv_head in Ez. apply cut_at in Ez as [E1 E2]; auto.
  destruct z, w; cbn in *. f_equal; auto.
Qed.
Print Assumptions C78_complex.

(* matrix_form writes the rows one below another; vectors in one row *)
Theorem C78_matrix_form : forall A (show : A -> text) s (t : tensor A) r c,
  wf t -> dims t = [r; c] -> 0 < r ->
  display show s t =
  Ok (s ++ lit "[" ++
      join [ascii_of_nat 10; " "%char]
        (map (fun i => join (lit ", ") (map (fun j => match elt t [i; j] with Some x => show x | None => [] end) (seq 0 c))) (seq 0 r)) ++
      lit "]").
Proof. intros A show s t r c W D H. rewrite (display2_ok show s t r c W D). destruct r; [lia|reflexivity]. Qed.
Print Assumptions C78_matrix_form.

Theorem C78_matrix_form_vector : forall A (show : A -> text) s (t : tensor A) n,
  wf t -> dims t = [n] -> 0 < n ->
  display show s t = Ok (s ++ lit "[" ++ join (lit ", ") (map show (data t)) ++ lit "]").
Proof. intros A show s t n W D H. rewrite (display1_ok show s t n W D). destruct n; [lia|reflexivity]. Qed.
Print Assumptions C78_matrix_form_vector.

(* and it tells matrices apart, if they have elements whose texts have no line
   breaks *)
Theorem C78_matrix_form_determines : forall A (show : A -> text) s (t u : tensor A) r c r' c' w,
  wf t -> wf u -> dims t = [r; c] -> dims u = [r'; c'] -> 0 < r -> 0 < c -> 0 < r' -> 0 < c' ->
  (forall x, In x (data t ++ data u) -> clean ", " (show x) /\ ~ In (ascii_of_nat 10) (show x)) ->
  display show s t = Ok w -> display show s u = Ok w ->
  dims t = dims u /\ forall ix, option_map show (elt t ix) = option_map show (elt u ix).
Proof. intros. eapply display2_inj; eauto. Qed.
Print Assumptions C78_matrix_form_determines.

Theorem C78_matrix_form_refuses : forall A (show : A -> text) s (t : tensor A),
  2 < List.length (dims t) -> display show s t = Abort.
Proof. intros A show s t H. unfold display. replace (2 <? List.length (dims t)) with true by lia. reflexivity. Qed.
Print Assumptions C78_matrix_form_refuses.

(* The brackets of matrix_form do not match when there are no rows: only the
   closing one is written; and all matrices without rows look the same. *)
Theorem C78_matrix_form_empty_refuted : forall A (show : A -> text) s (t : tensor A) c,
  wf t -> (dims t = [0; c] \/ dims t = [0]) -> display show s t = Ok (s ++ lit "]").
Proof.
  intros A show s t c W [D|D].
  - rewrite (display2_ok show s t 0 c W D). reflexivity.
  - rewrite (display1_ok show s t 0 W D). destruct (data t) eqn:E; [reflexivity|]. unfold wf in W. rewrite D, E in W. discriminate.
Qed.
Print Assumptions C78_matrix_form_empty_refuted.

Example C78_nonvacuous :
  let t := mkT [2; 3] [1; 2; 3; 40; 5; 6] in
  wf t /\ (forall x, In x (data t) -> clean ", " (decimal x) /\ ~ In (ascii_of_nat 10) (decimal x)) /\
  string_of_list_ascii (print_tensor decimal decimal [] t) = "([2, 3])/[1, 2, 3, 40, 5, 6]"%string /\
  display decimal [] t = Ok (lit "[1, 3, 5" ++ [ascii_of_nat 10] ++ lit " 2, 40, 6]") /\
  string_of_list_ascii (print_complex decimal [] (3, 14)) = "3 14"%string.
Proof.
  intros t. split; [reflexivity|]. split.
  - intros x _. split; [apply clean_free, decimal_free|]. apply decimal_not_in. unfold digit. cbn. lia.
  - repeat split.
Qed.
