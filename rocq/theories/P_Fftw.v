(* C64: the Fourier transforms. *)
From Verif Require Import Base Spec S_Fold S_Fftw M_Tensor M_Fftw L_Lin L_Fftw.

(* fftw(in, convert, direction) and fftw_inplace: the transform along the marked dimensions *)
Theorem C64_marked : forall A (N : numops A) (root : Z -> nat -> A) jio junk (t : tensor A) convert direction,
  numlaws N -> wf t -> dims t <> [] -> length convert = length (dims t) ->
  (forall i, nth_error convert i = Some true -> nth_error (dims t) i <> Some 0) ->
  exists r, transform_of N (root direction) convert t r /\
    fftw_some N root jio junk t convert direction = Ok r /\
    fftw_inplace_some N root jio t convert direction = Ok r.
Proof.
  intros A N root jio junk t C s L W Hn EC Hz.
  destruct (some_ok' N root L (fun x => x) jio junk s C t W Hn EC Hz) as ((r & E & H) & (r' & E' & H')).
  exists r. split; auto. split; auto. rewrite E'. f_equal. destruct H as (W1 & D1 & H1). destruct H' as (W2 & D2 & H2).
  apply tensor_ext; auto. split; [congruence|]. intros ix V. rewrite D2 in V. rewrite H1, H2 by auto. auto.
Qed.
Print Assumptions C64_marked.

(* fftw(in, dim, direction): along one dimension *)
Theorem C64_dimension : forall A (N : numops A) (root : Z -> nat -> A) jio junk (t : tensor A) d direction,
  numlaws N -> wf t -> d < length (dims t) -> nth_error (dims t) d <> Some 0 ->
  exists r, transform_of N (root direction) (map (Nat.eqb d) (seq 0 (length (dims t)))) t r /\
    fftw_dim N root jio junk t (Z.of_nat d) direction = Ok r /\
    fftw_inplace_dim N root jio t (Z.of_nat d) direction = Ok r.
Proof.
  intros A N root jio junk t d s L W Hn Hz.
  destruct (dim_ok' N root L (fun x => x) jio junk s d t W Hn Hz) as ((r & E & H) & (r' & E' & H')).
  exists r. split; auto. split; auto. rewrite E'. f_equal. destruct H as (W1 & D1 & H1). destruct H' as (W2 & D2 & H2).
  apply tensor_ext; auto. split; [congruence|]. intros ix V. rewrite D2 in V. rewrite H1, H2 by auto. auto.
Qed.
Print Assumptions C64_dimension.

(* fftw(in, direction): along all the dimensions *)
Theorem C64_all : forall A (N : numops A) (root : Z -> nat -> A) jdims junk (t : tensor A) direction,
  numlaws N -> wf t -> dims t <> [] -> Forall (fun d => 0 < d) (dims t) ->
  exists r, transform_of N (root direction) (repeat true (length (dims t))) t r /\
    fftw_all N root jdims junk t direction = Ok r /\
    fftw_inplace_all N root jdims t direction = Ok r.
Proof.
  intros A N root jd junk t s L W Hn Hz.
  destruct (all_ok' N root L jd (fun _ => mkIO 0 0 0) junk s t W Hn Hz) as ((r & E & H) & (r' & E' & H')).
  exists r. split; auto. split; auto. rewrite E'. f_equal. destruct H as (W1 & D1 & H1). destruct H' as (W2 & D2 & H2).
  apply tensor_ext; auto. split; [congruence|]. intros ix V. rewrite D2 in V. rewrite H1, H2 by auto. auto.
Qed.
Print Assumptions C64_all.

(* the opposite direction undoes a transform, up to the number of points *)
Theorem C64_inverse : forall A (N : numops A) (root : Z -> nat -> A) jio junk (t : tensor A) convert direction,
  numlaws N -> wf t -> dims t <> [] -> length convert = length (dims t) ->
  (forall i, nth_error convert i = Some true -> nth_error (dims t) i <> Some 0) ->
  (forall i d, nth_error convert i = Some true -> nth_error (dims t) i = Some d ->
     inverse_roots N d (root direction d) (root (- direction)%Z d)) ->
  exists r r', fftw_some N root jio junk t convert direction = Ok r /\
    fftw_some N root jio junk r convert (- direction)%Z = Ok r' /\
    dims r' = dims t /\
    forall ix x, elt t ix = Some x -> elt r' ix = Some (nmul N (number N (points (dims t) convert)) x).
Proof.
  intros A N root jio junk t C s L W Hn EC Hz R.
  destruct (some_ok' N root L (fun x => x) jio junk s C t W Hn EC Hz) as ((r & E & H) & _). pose proof H as (W1 & D1 & _).
  destruct (some_ok' N root L (fun x => x) jio junk (- s)%Z C r) as ((r' & E' & H') & _); auto; try (rewrite D1; auto).
  destruct (is_dft_inverse N root L (fun x => x) jio junk s (- s)%Z C t r r') as (Dr & Hr); auto.
  exists r, r'. repeat split; auto. intros ix x Hx.
  assert (V : valid (dims t) ix).
  { unfold elt in Hx. destruct (validb (dims t) ix) eqn:Ev; [|discriminate]. apply validb_iff. auto. }
  rewrite Hr by auto. rewrite (L_Kron.val_some N _ _ _ Hx). auto.
Qed.
Print Assumptions C64_inverse.

(* what the calls do not accept *)
Theorem C64_rejects : forall A (N : numops A) (root : Z -> nat -> A) jio junk (t : tensor A) direction,
  (forall d, (d < 0 \/ Z.of_nat (length (dims t)) <= d)%Z ->
     fftw_dim N root jio junk t d direction = Abort /\ fftw_inplace_dim N root jio t d direction = Abort) /\
  (forall convert, length convert <> length (dims t) ->
     fftw_some N root jio junk t convert direction = Abort /\ fftw_inplace_some N root jio t convert direction = Abort).
Proof.
  intros A N root jio junk t s. split.
  - intros d H. unfold fftw_dim, fftw_inplace_dim.
    replace ((0 <=? d) && (d <? Z.of_nat (length (dims t))))%Z with false by lia. auto.
  - intros C H. unfold fftw_some, fftw_inplace_some. replace (length C =? length (dims t)) with false by lia. auto.
Qed.
Print Assumptions C64_rejects.

(* Empty tensors are not transformed to empty tensors: a transform over an
   extent of zero executes the plan that the library could not make, and the
   transform of a tensor without dimensions reads an element it does not have. *)
Theorem C64_empty_refuted : forall A (N : numops A) (root : Z -> nat -> A) jdims junk direction,
  (forall (t : tensor A), In 0 (dims t) ->
     fftw_all N root jdims junk t direction = UB /\ fftw_inplace_all N root jdims t direction = UB) /\
  fftw_all N root jdims junk (mkT [] []) direction = UB.
Proof.
  intros A N root jd junk s. split; [|reflexivity].
  intros t Hin. unfold fftw_all, fftw_inplace_all. rewrite !do_fftw_all_dft by exact (fun _ => mkIO 0 0 0). unfold fftw_dft, fftw_guru.
  replace (existsb (fun d => io_n d =? 0) (row_major (rev (dims t)))) with true; auto.
  symmetry. apply existsb_exists. apply in_rev in Hin. rewrite <- (row_major_n (rev (dims t))) in Hin.
  apply in_map_iff in Hin as (d & E & Hd). exists d. split; auto. rewrite E. auto.
Qed.
Print Assumptions C64_empty_refuted.

(* a 2 x 4 tensor of Gaussian integers, with the roots -1 and i *)
Definition groot (s : Z) (n : nat) : Z * Z := if n =? 2 then (-1, 0)%Z else (0, s)%Z.
Example C64_nonvacuous :
  let t := mkT [2; 4] [(1, 0); (2, 1); (0, 3); (5, 0); (0, 0); (1, 1); (7, -2); (3, 0)]%Z in
  wf t /\ inverse_roots Gnum 2 (groot 1 2) (groot (-1) 2) /\ inverse_roots Gnum 4 (groot 1 4) (groot (-1) 4) /\
  inverse_roots Gnum 4 (groot (-1) 4) (groot (- -1) 4) /\
  fftw_all Gnum groot (fun _ => 0) (fun _ => (9, 9)%Z) t (-1) = Ok (mkT [2; 4]
    [(19, 3); (-3, -1); (7, 5); (5, 9); (-11, 1); (-1, -3); (-3, -5); (-5, -9)]%Z) /\
  fftw_dim Gnum groot (fun _ => mkIO 0 0 0) (fun _ => (9, 9)%Z) t 1 (-1) = Ok (mkT [2; 4]
    [(8, 1); (11, 2); (6, 7); (1, -2); (-6, -1); (-5, 2); (-4, -7); (1, 2)]%Z).
Proof.
  cbv zeta. assert (H : forall n w w', npow Gnum w n = (1, 0)%Z -> nmul Gnum w w' = (1, 0)%Z ->
    forallb (fun m => let '(x, y) := sum_n Gnum n (fun k => npow Gnum w (m * k)) in ((x =? 0) && (y =? 0))%Z) (seq 1 (n - 1)) = true -> inverse_roots Gnum n w w').
  { intros n w w' H1 H2 H3. repeat split; auto. intros m Hm. rewrite forallb_forall in H3. specialize (H3 m ltac:(apply in_seq; lia)).
    destruct (sum_n _ _ _) as (x, y). cbn. f_equal; lia. }
  split; [reflexivity|]. split; [apply H; reflexivity|]. split; [apply H; reflexivity|]. split; [apply H; reflexivity|].
  split; vm_compute; reflexivity.
Qed.
