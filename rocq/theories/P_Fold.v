(* C16-C19: contraction of tensors. *)
From Verif Require Import Base Spec S_Fold M_Tensor M_Fold L_Lin L_Fold.

(* C16: fold(A, m, B, n).  A has dimensions p1, l, s1 and B has dimensions p2,
   l, s2, where l is the extent of the contracted index. *)
Theorem C16_fold : forall A (N : numops A) jdims junk (a b : tensor A) m n p1 l s1 p2 s2,
  wf a -> wf b ->
  dims a = p1 ++ l :: s1 -> coord (length (dims a)) m (length p1) ->
  dims b = p2 ++ l :: s2 -> coord (length (dims b)) n (length p2) ->
  0 < l ->
  exists c, fold N jdims junk a m b n = Ok c /\ wf c /\
    dims c = scalar_dims (p1 ++ s1 ++ p2 ++ s2) /\
    forall u1 v1 u2 v2, valid p1 u1 -> valid s1 v1 -> valid p2 u2 -> valid s2 v2 ->
      elt c (scalar_ix (u1 ++ v1 ++ u2 ++ v2)) =
      Some (sum_n N l (fun x => nmul N (val N a (u1 ++ x :: v1)) (val N b (u2 ++ x :: v2)))).
Proof.
  intros A N jd junk a b m n p1 l s1 p2 s2 Ha Hb Ea H1 Eb H2 Hl.
  exact (do_fold_ok N false jd junk a b m n p1 l s1 p2 s2 ltac:(discriminate) Ha Hb Ea Eb H1 H2 Hl).
Qed.
Print Assumptions C16_fold.

Theorem C16_fold_rejects_extents : forall A (N : numops A) jdims junk (a b : tensor A) m n p1 l1 s1 p2 l2 s2,
  dims a = p1 ++ l1 :: s1 -> coord (length (dims a)) m (length p1) ->
  dims b = p2 ++ l2 :: s2 -> coord (length (dims b)) n (length p2) ->
  l1 <> l2 \/ l1 = 0 ->
  fold N jdims junk a m b n = Abort.
Proof. intros. eapply do_fold_reject; eauto. Qed.
Print Assumptions C16_fold_rejects_extents.

Theorem C16_fold_rejects_indices : forall A (N : numops A) jdims junk (a b : tensor A) m n,
  (forall p, ~ coord (length (dims a)) m p) \/ (forall p, ~ coord (length (dims b)) n p) ->
  fold N jdims junk a m b n = Abort.
Proof. intros. apply do_fold_reject_ix; auto. Qed.
Print Assumptions C16_fold_rejects_indices.

(* the matrix product *)
Theorem C16_mmult : forall A (N : numops A) jdims junk (a b : tensor A) r l c,
  wf a -> wf b -> dims a = [r; l] -> dims b = [l; c] -> 0 < l ->
  exists p, mmult N jdims junk a b = Ok p /\ wf p /\ dims p = [r; c] /\
    forall i j, i < r -> j < c ->
      elt p [i; j] = Some (sum_n N l (fun x => nmul N (val N a [i; x]) (val N b [x; j]))).
Proof.
  intros A N jd junk a b r l c Ha Hb Ea Eb Hl.
  destruct (do_fold_ok N false jd junk a b (-1) 0 [r] l [] [] [c]) as (p & E & Hw & Hd & H); auto; try discriminate.
  - rewrite Ea. split; simpl; [lia|auto].
  - rewrite Eb. split; simpl; [lia|auto].
  - exists p. split; [exact E|]. split; [auto|]. split; [exact Hd|]. intros i j Hi Hj.
    apply (H [i] [] [] [j]); repeat constructor; auto.
Qed.
Print Assumptions C16_mmult.

Example C16_nonvacuous :
  let a := mkT [2; 3; 2] [1; 2; 3; 4; 5; 6; 7; 8; 9; 10; 11; 12]%Z in
  let b := mkT [2; 3] [1; 0; 2; 1; 0; 3]%Z in
  wf a /\ wf b /\ dims a = [2] ++ 3 :: [2] /\ coord 3 (-2) (length [2]) /\
  dims b = [2] ++ 3 :: [] /\ coord 2 1 (length [2]) /\
  fold Znum (fun _ => 7) (fun _ => 9%Z) a (-2) b 1 = Ok (mkT [2; 2; 2] [7; 10; 25; 28; 18; 22; 42; 46]%Z).
Proof. repeat split; auto; simpl; lia. Qed.

(* both vectors: a number *)
Example C16_nonvacuous_scalar :
  fold Znum (fun _ => 7) (fun _ => 9%Z) (mkT [3] [1; 2; 3]%Z) 0 (mkT [3] [4; 5; 6]%Z) (-1) = Ok (mkT [1] [32]%Z).
Proof. reflexivity. Qed.

Example C16_nonvacuous_reject :
  let a := mkT [2; 3] [1; 2; 3; 4; 5; 6]%Z in
  dims a = [] ++ 2 :: [3] /\ coord 2 (-2) 0 /\ dims a = [2] ++ 3 :: [] /\ coord 2 1 1 /\ 2 <> 3 /\
  (forall p, ~ coord (length (dims a)) 2 p).
Proof. repeat split; auto. intros p (H & E). simpl in *. lia. Qed.

(* C17: foldc conjugates its first argument *)
Theorem C17_foldc : forall A (N : numops A) jdims junk jdims' junk' (a b : tensor A) m n,
  numlaws N -> wf a -> wf b ->
  foldc N jdims junk a m b n = fold N jdims' junk' (tconj N a) m b n.
Proof. intros. apply foldc_fold; auto. Qed.
Print Assumptions C17_foldc.

Theorem C17_foldc_elements : forall A (N : numops A) jdims junk (a b : tensor A) m n p1 l s1 p2 s2,
  numlaws N -> wf a -> wf b ->
  dims a = p1 ++ l :: s1 -> coord (length (dims a)) m (length p1) ->
  dims b = p2 ++ l :: s2 -> coord (length (dims b)) n (length p2) ->
  0 < l ->
  exists c, foldc N jdims junk a m b n = Ok c /\ wf c /\
    dims c = scalar_dims (p1 ++ s1 ++ p2 ++ s2) /\
    forall u1 v1 u2 v2, valid p1 u1 -> valid s1 v1 -> valid p2 u2 -> valid s2 v2 ->
      elt c (scalar_ix (u1 ++ v1 ++ u2 ++ v2)) =
      Some (sum_n N l (fun x => nmul N (nconj N (val N a (u1 ++ x :: v1))) (val N b (u2 ++ x :: v2)))).
Proof.
  intros A N jd junk a b m n p1 l s1 p2 s2 L Ha Hb Ea H1 Eb H2 Hl.
  exact (do_fold_ok N true jd junk a b m n p1 l s1 p2 s2 (fun _ => L) Ha Hb Ea Eb H1 H2 Hl).
Qed.
Print Assumptions C17_foldc_elements.

(* real first argument, complex second *)
Theorem C17_foldc_real : forall A B (NB : numops B) (inj : A -> B) jdims junk jdims' junk' (a : tensor A) (b : tensor B) m n,
  numlaws NB -> (forall x, nconj NB (inj x) = inj x) -> wf a -> wf b ->
  foldc_dz NB inj jdims junk a m b n = fold_dz NB inj jdims' junk' a m b n /\
  foldc_dz NB inj jdims junk a m b n = foldc NB jdims' junk' (to_complex inj a) m b n.
Proof. intros. apply foldc_real; auto. Qed.
Print Assumptions C17_foldc_real.

(* both arguments real *)
Theorem C17_foldc_real_real : forall A (N : numops A) jdims junk jdims' junk' (a b : tensor A) m n,
  numlaws N -> (forall x, nconj N x = x) -> wf a -> wf b ->
  foldc_d N jdims junk a m b n = fold N jdims' junk' a m b n.
Proof. intros. apply foldc_d_fold; auto. Qed.
Print Assumptions C17_foldc_real_real.

(* one argument real and the other complex: the real elements are converted and
   only complex elements of the first argument are conjugated *)
Theorem C17_mixed : forall A B (NA : numops A) (NB : numops B) (inj : A -> B) jdims junk (r : tensor A) (z : tensor B) m n p1 l s1 p2 s2,
  numlaws NB -> (forall x, nconj NB (inj x) = inj x) -> wf r -> wf z ->
  dims r = p1 ++ l :: s1 -> coord (length (dims r)) m (length p1) ->
  dims z = p2 ++ l :: s2 -> coord (length (dims z)) n (length p2) ->
  0 < l ->
  let rv ix := inj (val NA r ix) in
  let zv ix := val NB z ix in
  (forall f, f = fold_dz NB inj jdims junk r m z n \/ f = foldc_dz NB inj jdims junk r m z n ->
    exists c, f = Ok c /\ wf c /\ dims c = scalar_dims (p1 ++ s1 ++ p2 ++ s2) /\
      forall u1 v1 u2 v2, valid p1 u1 -> valid s1 v1 -> valid p2 u2 -> valid s2 v2 ->
        elt c (scalar_ix (u1 ++ v1 ++ u2 ++ v2)) =
        Some (sum_n NB l (fun x => nmul NB (rv (u1 ++ x :: v1)) (zv (u2 ++ x :: v2))))) /\
  (exists c, fold_zd NB inj jdims junk z n r m = Ok c /\ wf c /\ dims c = scalar_dims (p2 ++ s2 ++ p1 ++ s1) /\
      forall u1 v1 u2 v2, valid p1 u1 -> valid s1 v1 -> valid p2 u2 -> valid s2 v2 ->
        elt c (scalar_ix (u2 ++ v2 ++ u1 ++ v1)) =
        Some (sum_n NB l (fun x => nmul NB (zv (u2 ++ x :: v2)) (rv (u1 ++ x :: v1))))) /\
  (exists c, foldc_zd NB inj jdims junk z n r m = Ok c /\ wf c /\ dims c = scalar_dims (p2 ++ s2 ++ p1 ++ s1) /\
      forall u1 v1 u2 v2, valid p1 u1 -> valid s1 v1 -> valid p2 u2 -> valid s2 v2 ->
        elt c (scalar_ix (u2 ++ v2 ++ u1 ++ v1)) =
        Some (sum_n NB l (fun x => nmul NB (nconj NB (zv (u2 ++ x :: v2))) (rv (u1 ++ x :: v1))))).
Proof.
  intros A B NA NB inj jd junk r z m n p1 l s1 p2 s2 L Hc Hr Hz Er H1 Ez H2 Hl rv zv.
  assert (Hw : wf (to_complex inj r)) by (unfold wf, to_complex in *; cbn; rewrite map_length; auto).
  assert (Hv : forall ix, valid (dims r) ix -> val NB (to_complex inj r) ix = rv ix).
  { intros ix V. unfold rv, val. 
    assert (Hd : dims r <> []) by (rewrite Er; destruct p1; discriminate).
    destruct (elt_some r ix Hr Hd V) as (x & E). rewrite E.
    rewrite elt_valid in E by auto. rewrite elt_valid by auto. cbn. rewrite nth_error_map, E. reflexivity. }
  assert (Hv' : forall u x v, valid p1 u -> valid s1 v -> x < l -> val NB (to_complex inj r) (u ++ x :: v) = rv (u ++ x :: v)).
  { intros u x v Vu Vv Hx. apply Hv. rewrite Er. apply valid_app; [apply (valid_length _ _ Vu)|]. split; auto. apply valid_cons; auto. }
  split; [|split].
  - intros f Hf.
    destruct (do_fold_ok NB false jd junk (to_complex inj r) z m n p1 l s1 p2 s2 ltac:(discriminate) Hw Hz Er Ez H1 H2 Hl)
      as (c & E & W & D & H).
    exists c. split; [destruct Hf as [->| ->]; exact E|]. split; [auto|]. split; [auto|].
    intros u1 v1 u2 v2 V1 V2 V3 V4. rewrite (H u1 v1 u2 v2 V1 V2 V3 V4). f_equal. apply sum_ext. intros x Hx.
    rewrite Hv'; auto.
  - destruct (do_fold_ok NB false jd junk z (to_complex inj r) n m p2 l s2 p1 s1 ltac:(discriminate) Hz Hw Ez Er H2 H1 Hl)
      as (c & E & W & D & H).
    exists c. split; [exact E|]. split; [auto|]. split; [auto|].
    intros u1 v1 u2 v2 V1 V2 V3 V4. rewrite (H u2 v2 u1 v1 V3 V4 V1 V2). f_equal. apply sum_ext. intros x Hx.
    rewrite Hv'; auto.
  - destruct (do_fold_ok NB true jd junk z (to_complex inj r) n m p2 l s2 p1 s1 (fun _ => L) Hz Hw Ez Er H2 H1 Hl)
      as (c & E & W & D & H).
    exists c. split; [exact E|]. split; [auto|]. split; [auto|].
    intros u1 v1 u2 v2 V1 V2 V3 V4. rewrite (H u2 v2 u1 v1 V3 V4 V1 V2). f_equal. apply sum_ext. intros x Hx.
    rewrite Hv'; auto.
Qed.
Print Assumptions C17_mixed.

Example C17_nonvacuous :
  let a := mkT [2; 2] [(1, 1); (2, -1); (0, 3); (1, 0)]%Z in
  let b := mkT [2] [(0, 1); (1, 2)]%Z in
  numlaws Gnum /\ wf a /\ wf b /\
  foldc Gnum (fun _ => 7) (fun _ => (9, 9)%Z) a 0 b 0 = Ok (mkT [2] [(1, 6); (4, 2)]%Z) /\
  fold Gnum (fun _ => 7) (fun _ => (9, 9)%Z) a 0 b 0 = Ok (mkT [2] [(3, 4); (-2, 2)]%Z).
Proof. split; [exact Gnum_laws|]. repeat split. Qed.

Example C17_mixed_nonvacuous :
  let r := mkT [2; 2] [1; 2; 3; 4]%Z in
  let z := mkT [2] [(0, 1); (1, 2)]%Z in
  let inj := fun x : Z => (x, 0%Z) in
  numlaws Gnum /\ (forall x, nconj Gnum (inj x) = inj x) /\ wf r /\ wf z /\
  dims r = [] ++ 2 :: [2] /\ coord 2 (-2) 0 /\ dims z = [] ++ 2 :: [] /\ coord 1 0 0 /\
  foldc_dz Gnum inj (fun _ => 7) (fun _ => (9, 9)%Z) r (-2) z 0 = Ok (mkT [2] [(2, 5); (4, 11)]%Z) /\
  foldc_zd Gnum inj (fun _ => 7) (fun _ => (9, 9)%Z) z 0 r (-2) = Ok (mkT [2] [(2, -5); (4, -11)]%Z).
Proof. split; [exact Gnum_laws|]. repeat split; auto. Qed.

(* C18: foldin.  The free indices of A take the place of the contracted index
   of B.  Missing: the case of two vectors, refuted below. *)
Theorem C18_foldin_partial : forall A (N : numops A) jdims junk (a b : tensor A) m n p1 l s1 p2 s2,
  numlaws N -> wf a -> wf b ->
  dims a = p1 ++ l :: s1 -> coord (length (dims a)) m (length p1) ->
  dims b = p2 ++ l :: s2 -> coord (length (dims b)) n (length p2) ->
  p2 ++ p1 ++ s1 ++ s2 <> [] ->
  exists c, foldin N jdims junk a m b n = Ok c /\ wf c /\
    dims c = p2 ++ (p1 ++ s1) ++ s2 /\
    forall u1 v1 u2 v2, valid p1 u1 -> valid s1 v1 -> valid p2 u2 -> valid s2 v2 ->
      elt c (u2 ++ (u1 ++ v1) ++ v2) =
      Some (sum_n N l (fun x => nmul N (val N a (u1 ++ x :: v1)) (val N b (u2 ++ x :: v2)))).
Proof.
  intros A N jd junk a b m n p1 l s1 p2 s2 L Ha Hb Ea H1 Eb H2 Hne.
  exact (foldin_ok N jd junk a b m n p1 l s1 p2 s2 L Ha Hb Ea Eb H1 H2 Hne).
Qed.
Print Assumptions C18_foldin_partial.

Theorem C18_foldin_rejects_extents : forall A (N : numops A) jdims junk (a b : tensor A) m n p1 l1 s1 p2 l2 s2,
  dims a = p1 ++ l1 :: s1 -> coord (length (dims a)) m (length p1) ->
  dims b = p2 ++ l2 :: s2 -> coord (length (dims b)) n (length p2) ->
  l1 <> l2 ->
  foldin N jdims junk a m b n = Abort.
Proof. intros. eapply foldin_reject; eauto. Qed.
Print Assumptions C18_foldin_rejects_extents.

Example C18_nonvacuous :
  let a := mkT [2; 3] [1; 2; 3; 4; 5; 6]%Z in
  let b := mkT [2; 3] [1; 0; 2; 1; 0; 3]%Z in
  wf a /\ wf b /\ dims a = [2] ++ 3 :: [] /\ coord 2 (-1) 1 /\ dims b = [2] ++ 3 :: [] /\ coord 2 1 1 /\
  [2] ++ [2] ++ [] ++ [] <> ([] : list nat) /\
  foldin Znum (fun _ => 7) (fun _ => 9%Z) a (-1) b 1 = Ok (mkT [2; 2] [7; 18; 10; 22]%Z).
Proof. repeat split; auto; try discriminate. Qed.

(* contracting two vectors writes out of bounds *)
Theorem C18_foldin_vectors_refuted : exists (a b : tensor Z),
  wf a /\ wf b /\ dims a = [2] /\ dims b = [2] /\
  forall jdims junk, foldin Znum jdims junk a 0 b 0 = UB.
Proof.
  exists (mkT [2] [1; 2]%Z), (mkT [2] [3; 4]%Z). repeat (split; [reflexivity|]).
  intros. apply (foldin_vectors _ _ _ _ _ 2); reflexivity.
Qed.
Print Assumptions C18_foldin_vectors_refuted.

(* C19: the destination's old value does not matter when the destination is
   another object than the arguments (its storage may be shared: assignment
   replaces the reference, see C01-C03).  Missing: destination = argument,
   refuted below. *)
Theorem C19_into_partial : forall A (N : numops A) jdims junk jdims' junk' (c a b : tensor A) m n,
  wf a -> wf b ->
  fold_into N jdims junk c a m b n = fold N jdims' junk' a m b n /\
  foldin_into N jdims junk c a m b n = foldin N jdims' junk' a m b n /\
  mmult_into N jdims junk c a b = mmult N jdims' junk' a b.
Proof. intros. apply into_same; auto. Qed.
Print Assumptions C19_into_partial.

(* mmult_into(A, A, B): reads beyond the new, smaller block *)
Theorem C19_mmult_into_first_refuted : exists (a b : tensor Z),
  wf a /\ wf b /\
  forall jdims junk,
    mmult Znum jdims junk a b = Ok (mkT [1; 1] [11]%Z) /\
    mmult_into_a Znum jdims junk a b = UB.
Proof.
  exists (mkT [1; 2] [1; 2]%Z), (mkT [2; 1] [3; 4]%Z). repeat (split; [reflexivity|]).
  intros. split; reflexivity.
Qed.
Print Assumptions C19_mmult_into_first_refuted.

Theorem C19_mmult_into_second_refuted : exists (a b : tensor Z),
  wf a /\ wf b /\
  forall jdims junk,
    mmult Znum jdims junk a b = Ok (mkT [1; 1] [11]%Z) /\
    mmult_into_b Znum jdims junk a b = UB.
Proof.
  exists (mkT [1; 2] [1; 2]%Z), (mkT [2; 1] [3; 4]%Z). repeat (split; [reflexivity|]).
  intros. split; reflexivity.
Qed.
Print Assumptions C19_mmult_into_second_refuted.

Theorem C19_foldin_into_refuted : exists (a b : tensor Z),
  wf a /\ wf b /\
  forall jdims junk,
    foldin Znum jdims junk a (-1) b 0 = Ok (mkT [1; 1] [11]%Z) /\
    foldin_into_a Znum jdims junk a (-1) b 0 = UB /\
    foldin_into_b Znum jdims junk a (-1) b 0 = UB.
Proof.
  exists (mkT [1; 2] [1; 2]%Z), (mkT [2; 1] [3; 4]%Z). repeat (split; [reflexivity|]).
  intros. repeat split; reflexivity.
Qed.
Print Assumptions C19_foldin_into_refuted.
