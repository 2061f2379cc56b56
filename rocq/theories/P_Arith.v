(* C27: elementwise arithmetic.  C33: eye, zeros, ones, linspace.
   C57: compound assignment with a number. *)
From Verif Require Import Base Spec M_Tensor M_Arith M_Fold S_Fold M_Linspace L_Lin L_Fold L_Arith L_Linspace.
Local Open Scope nat_scope.

(* C27.  op is any binary operation, so the theorems cover +, -, *, / and the
   real/complex combinations.  Missing from the full property: tensors of one
   element type with different dimensions but the same number of elements are
   not rejected (C27_accepts_other_shapes_refuted).  That operands and copies
   stay unchanged is C01 and C02. *)
Theorem C27_tensor_tensor_partial : forall A B C (op : A -> B -> C) junk (a : tensor A) (b : tensor B),
  wf a -> wf b ->
  (dims a = dims b ->
   exists c, t_op_t op junk a b = Ok c /\ wf c /\ dims c = dims a /\
     forall ix x y, elt a ix = Some x -> elt b ix = Some y -> elt c ix = Some (op x y)) /\
  (nelem (dims a) <> nelem (dims b) -> t_op_t op junk a b = Abort).
Proof.
  intros A B C op junk a b Ha Hb. split.
  - intros E. destruct (t_op_t_ok op junk a b Ha Hb E) as (c & H1 & H2 & H3 & H4). exists c. repeat split; auto.
    intros ix x y Hx Hy. rewrite H4, Hx, Hy. reflexivity.
  - apply t_op_t_reject; auto.
Qed.
Print Assumptions C27_tensor_tensor_partial.

Theorem C27_accepts_other_shapes_refuted : exists a b c : tensor Z,
  wf a /\ wf b /\ dims a <> dims b /\ t_op_t Z.add (fun _ => 0%Z) a b = Ok c.
Proof.
  exists (mkT [2; 3] [1; 2; 3; 4; 5; 6]%Z), (mkT [3; 2] [1; 2; 3; 4; 5; 6]%Z), (mkT [2; 3] [2; 4; 6; 8; 10; 12]%Z).
  repeat split; auto. discriminate.
Qed.
Print Assumptions C27_accepts_other_shapes_refuted.

(* the template operators (different element types) do reject them *)
Theorem C27_mixed_types : forall A B C (op : A -> B -> C) junk (a : tensor A) (b : tensor B),
  wf a -> wf b ->
  (dims a = dims b ->
   exists c, t_op_t_mixed op junk a b = Ok c /\ wf c /\ dims c = dims a /\
     forall ix x y, elt a ix = Some x -> elt b ix = Some y -> elt c ix = Some (op x y)) /\
  (dims a <> dims b -> t_op_t_mixed op junk a b = Abort).
Proof.
  intros A B C op junk a b Ha Hb. destruct (t_op_t_mixed_ok op junk a b Ha Hb) as [H1 H2]. split; auto.
  intros E. destruct (H1 E) as (c & G1 & G2 & G3 & G4). exists c. repeat split; auto.
  intros ix x y Hx Hy. rewrite G4, Hx, Hy. reflexivity.
Qed.
Print Assumptions C27_mixed_types.

Theorem C27_tensor_number : forall A B C (op : A -> B -> C) junk (a : tensor A) (b : B),
  wf a ->
  exists c, t_op_n op junk a b = Ok c /\ wf c /\ dims c = dims a /\
    forall ix, elt c ix = option_map (fun x => op x b) (elt a ix).
Proof. intros. rewrite t_op_n_unop. apply unop_ok; auto. Qed.
Print Assumptions C27_tensor_number.

Theorem C27_number_tensor : forall A B C (op : A -> B -> C) junk (a : A) (b : tensor B),
  wf b ->
  exists c, n_op_t op junk a b = Ok c /\ wf c /\ dims c = dims b /\
    forall ix, elt c ix = option_map (fun y => op a y) (elt b ix).
Proof. intros. rewrite n_op_t_unop. apply unop_ok; auto. Qed.
Print Assumptions C27_number_tensor.

Theorem C27_function : forall A C (f : A -> C) junk (a : tensor A),
  wf a ->
  exists c, unop f junk a = Ok c /\ wf c /\ dims c = dims a /\
    forall ix, elt c ix = option_map f (elt a ix).
Proof. intros. apply unop_ok; auto. Qed.
Print Assumptions C27_function.

(* compound forms *)
Theorem C27_compound_partial : forall A B (op : A -> B -> A) (a : tensor A) (b : tensor B),
  wf a -> wf b ->
  (dims a = dims b ->
   exists c, op_assign_t op a b = Ok c /\ wf c /\ dims c = dims a /\
     forall ix x y, elt a ix = Some x -> elt b ix = Some y -> elt c ix = Some (op x y)) /\
  (nelem (dims a) <> nelem (dims b) -> op_assign_t op a b = Abort).
Proof.
  intros A B op a b Ha Hb. split.
  - intros E. destruct (op_assign_t_ok op a b Ha Hb E) as (c & H1 & H2 & H3 & H4). exists c. repeat split; auto.
    intros ix x y Hx Hy. rewrite H4, Hx, Hy. reflexivity.
  - apply op_assign_t_reject; auto.
Qed.
Print Assumptions C27_compound_partial.

Theorem C27_compound_mixed : forall A B (op : A -> B -> A) (a : tensor A) (b : tensor B),
  wf a -> wf b ->
  (dims a = dims b ->
   exists c, op_assign_t_mixed op a b = Ok c /\ wf c /\ dims c = dims a /\
     forall ix x y, elt a ix = Some x -> elt b ix = Some y -> elt c ix = Some (op x y)) /\
  (dims a <> dims b -> op_assign_t_mixed op a b = Abort).
Proof.
  intros A B op a b Ha Hb. destruct (op_assign_t_mixed_ok op a b Ha Hb) as [H1 H2]. split; auto.
  intros E. destruct (H1 E) as (c & G1 & G2 & G3 & G4). exists c. repeat split; auto.
  intros ix x y Hx Hy. rewrite G4, Hx, Hy. reflexivity.
Qed.
Print Assumptions C27_compound_mixed.

(* a op= a, with both operands the same object *)
Theorem C27_compound_self : forall A (op : A -> A -> A) (a : tensor A),
  wf a ->
  exists c, op_assign_self op a = Ok c /\ wf c /\ dims c = dims a /\
    forall ix, elt c ix = option_map (fun x => op x x) (elt a ix).
Proof.
  intros A op a Ha. destruct (op_assign_self_ok op a Ha) as (c & H1 & H2 & H3 & H4). exists c. repeat split; auto.
  intros ix. rewrite H4. destruct (elt a ix); reflexivity.
Qed.
Print Assumptions C27_compound_self.

Example C27_nonvacuous :
  let a := mkT [2; 2] [10; 20; 30; 40]%Z in let b := mkT [2; 2] [1; 2; 3; 4]%Z in
  wf a /\ wf b /\ dims a = dims b /\
  t_op_t Z.sub (fun _ => 99%Z) a b = Ok (mkT [2; 2] [9; 18; 27; 36]%Z) /\
  n_op_t Z.sub (fun _ => 99%Z) 100%Z b = Ok (mkT [2; 2] [99; 98; 97; 96]%Z) /\
  t_op_n Z.sub (fun _ => 99%Z) b 100%Z = Ok (mkT [2; 2] [-99; -98; -97; -96]%Z) /\
  op_assign_t Z.sub a b = Ok (mkT [2; 2] [9; 18; 27; 36]%Z) /\
  op_assign_self Z.mul b = Ok (mkT [2; 2] [1; 4; 9; 16]%Z) /\
  t_op_t_mixed Z.add (fun _ => 0%Z) (mkT [2; 3] [1; 2; 3; 4; 5; 6]%Z) (mkT [3; 2] [1; 2; 3; 4; 5; 6]%Z) = Abort /\
  t_op_t Z.add (fun _ => 0%Z) a (mkT [2] [1; 2]%Z) = Abort.
Proof. repeat split. Qed.

(* C57: t op= x uses the value x had when the statement began.  Proved when x is
   not an element of t; false otherwise. *)
Theorem C57_compound_number_partial : forall A (op : A -> A -> A) (a : tensor A) (v : A),
  wf a ->
  exists c, op_assign_n op a (Outside v) = Ok c /\ wf c /\ dims c = dims a /\
    forall ix, elt c ix = option_map (fun x => op x v) (elt a ix).
Proof. intros. apply op_assign_n_ok; auto. Qed.
Print Assumptions C57_compound_number_partial.

(* t *= t[0] on t = (2, 3): 3 is multiplied by 4, not by 2 *)
Theorem C57_compound_own_element_refuted :
  exists (a : tensor Z) (p : nat) (v : Z) c,
    wf a /\ nth_error (data a) p = Some v /\ op_assign_n Z.mul a (ElementOf p) = Ok c /\
    ~ (forall ix, elt c ix = option_map (fun x => Z.mul x v) (elt a ix)).
Proof.
  exists (mkT [2] [2; 3]%Z), 0, 2%Z, (mkT [2] [4; 12]%Z). repeat split; auto.
  intros H. specialize (H [1]). discriminate.
Qed.
Print Assumptions C57_compound_own_element_refuted.

Example C57_nonvacuous :
  op_assign_n Z.mul (mkT [3] [2; 3; 5]%Z) (Outside 2%Z) = Ok (mkT [3] [4; 6; 10]%Z).
Proof. reflexivity. Qed.

(* C33 *)
Theorem C33_eye : forall A (N : numops A) (junk : nat -> A) rows cols,
  exists m : tensor A, eye N junk rows cols = Ok m /\ wf m /\ dims m = [rows; cols] /\
    forall i j, i < rows -> j < cols -> elt m [i; j] = Some (if i =? j then none_ N else nzero N).
Proof. intros. apply eye_ok. Qed.
Print Assumptions C33_eye.

Theorem C33_zeros_ones : forall A (N : numops A) (junk : nat -> A) ds, ds <> [] ->
  (exists z : tensor A, zeros N junk ds = Ok z /\ wf z /\ dims z = ds /\ forall ix, valid ds ix -> elt z ix = Some (nzero N)) /\
  (exists o : tensor A, ones N junk ds = Ok o /\ wf o /\ dims o = ds /\ forall ix, valid ds ix -> elt o ix = Some (none_ N)).
Proof.
  intros A N junk ds Hne. split.
  - destruct (const_ok junk ds (nzero N)) as (c & H1 & H2 & H3 & H4). exists c; auto.
  - destruct (const_ok junk ds (none_ N)) as (c & H1 & H2 & H3 & H4). exists c; auto.
Qed.
Print Assumptions C33_zeros_ones.

(* linspace between two numbers, in exact arithmetic *)
Theorem C33_linspace_number : forall junk (a b : Q) n, 1 < n ->
  exists t, (exists F, forall fuel, F <= fuel -> linspace_number fuel junk a b n = Ok t) /\ wf t /\ dims t = [n] /\
    (forall i, i < n -> exists v, elt t [i] = Some v /\ (v == a + (b - a) * (qnat i / (qnat n - 1)))%Q) /\
    (exists v, elt t [0] = Some v /\ (v == a)%Q) /\
    (exists v, elt t [n - 1] = Some v /\ (v == b)%Q).
Proof.
  intros junk a b n Hn.
  destruct (linspace_ok junk (mkT [1] [a]) (mkT [1] [b]) n) as (t & (F & HF) & Hw & Hd & Hl & H); try reflexivity; auto.
  cbn [data length] in *. simpl in Hd.
  assert (G : forall i, i < n -> exists v, elt t [i] = Some v /\ (v == a + (b - a) * (qnat i / (qnat n - 1)))%Q).
  { intros i Hi. exists (lin_value a b n i). split; [|apply lin_value_spec; auto].
    rewrite elt_valid by (rewrite Hd; repeat constructor; auto). rewrite Hd, lin_cons, lin_nil.
    replace (i + n * 0) with (0 + 1 * i) by lia. rewrite H by auto. reflexivity. }
  exists t. split; [exists F; intros fuel Hf; exact (HF fuel Hf)|]. split; [auto|]. split; [auto|]. split; [auto|]. split.
  - destruct (G 0 ltac:(lia)) as (v & Hv & Ev). exists v. split; auto. rewrite Ev. unfold qnat. simpl.
    field. apply (qnat_pos n Hn).
  - destruct (G (n - 1) ltac:(lia)) as (v & Hv & Ev). exists v. split; auto. rewrite Ev.
    assert (En : (qnat (n - 1) == qnat n - 1)%Q).
    { unfold qnat, inject_Z, Qminus, Qplus, Qeq; simpl. lia. }
    rewrite En. field. apply qnat_pos; auto.
Qed.
Print Assumptions C33_linspace_number.

(* linspace between two tensors of n points: one more index, the position along
   the line *)
Theorem C33_linspace_tensor : forall junk (a b : tensor Q) n,
  wf a -> wf b -> dims a = dims b -> 1 < nelem (dims a) -> 1 < n ->
  exists t, (exists F, forall fuel, F <= fuel -> linspace fuel junk a b n = Ok t) /\ wf t /\ dims t = dims a ++ [n] /\
    forall ix x y i, elt a ix = Some x -> elt b ix = Some y -> i < n ->
      exists v, elt t (ix ++ [i]) = Some v /\ (v == x + (y - x) * (qnat i / (qnat n - 1)))%Q.
Proof.
  intros junk a b n Ha Hb Ed Hs Hn.
  destruct (linspace_ok junk a b n Ha Hb Ed ltac:(rewrite Ha; lia) Hn) as (t & HF & Hw & Hd & Hl & H).
  assert (Hd' : dims t = dims a ++ [n]).
  { rewrite Hd, Ha. replace (nelem (dims a) =? 1) with false by lia. reflexivity. }
  exists t. split; [auto|]. split; [auto|]. split; [auto|]. intros ix x y i Hx Hy Hi.
  exists (lin_value x y n i). split; [|apply lin_value_spec; auto].
  assert (Hv : valid (dims a) ix).
  { unfold elt in Hx. destruct (validb (dims a) ix) eqn:V; [apply validb_iff; auto|discriminate]. }
  rewrite elt_valid in Hx by auto. rewrite elt_valid in Hy by congruence. rewrite <- Ed in Hy.
  rewrite elt_valid by (rewrite Hd'; apply valid_app; [apply valid_length; auto|]; split; [auto|repeat constructor; auto]).
  rewrite Hd', lin_app by (apply valid_length; auto). rewrite lin_cons, lin_nil.
  assert (Hne : dims a <> []) by (intros E; rewrite E in Hs; simpl in Hs; lia).
  assert (El : length (data a) = prod (dims a)) by (rewrite Ha; apply nelem_prod; auto).
  replace (lin (dims a) ix + prod (dims a) * (i + n * 0)) with (lin (dims a) ix + length (data a) * i) by (rewrite El; lia).
  rewrite H by (auto; rewrite El; apply lin_lt; auto). unfold linopt. rewrite Hx, Hy. reflexivity.
Qed.
Print Assumptions C33_linspace_tensor.

Theorem C33_linspace_one_point : forall fuel junk (a b : tensor Q),
  wf a -> 1 < nelem (dims a) ->
  linspace fuel junk a b 1 = Ok (mkT (dims a ++ [1]) (data a)).
Proof.
  intros fuel junk a b Ha Hs. rewrite linspace_one; auto.
  - rewrite Ha. replace (nelem (dims a) =? 1) with false by lia. reflexivity.
  - intros E; rewrite E in Hs; simpl in Hs; lia.
Qed.
Print Assumptions C33_linspace_one_point.

Example C33_nonvacuous :
  eye Znum (fun _ => 7%Z) 2 3 = Ok (mkT [2; 3] [1; 0; 0; 1; 0; 0]%Z) /\
  match linspace_number 20 (fun _ => 9%Q) 1 3 5 with
  | Ok t => dims t = [5] /\ Forall2 Qeq (data t) [1; 3 # 2; 2; 5 # 2; 3]%Q
  | _ => False
  end.
Proof. split; [reflexivity|]. vm_compute. split; [reflexivity|]. repeat constructor. Qed.

Example C33_nonvacuous_tensor :
  let a := mkT [2] [1; 2]%Q in let b := mkT [2] [3; 6]%Q in
  wf a /\ wf b /\ dims a = dims b /\ 1 < nelem (dims a).
Proof. repeat split; simpl; lia. Qed.
