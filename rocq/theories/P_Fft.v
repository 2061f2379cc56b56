(* C51: fftshift. *)
From Verif Require Import Base Spec L_Lin M_Tensor M_Range M_Fft S_Fft L_Fft.

(* one dimension: position x moves to (x + floor(l/2)) mod l *)
Theorem C51_forward_dimension : forall A junk (t : tensor A) p l s,
  wf t -> dims t = p ++ l :: s ->
  exists c, wf c /\ dims c = dims t /\
    (forall u x w, valid p u -> x < l -> valid s w -> elt c (u ++ shifted l x :: w) = elt t (u ++ x :: w)) /\
    exists F, forall fuel, F <= fuel -> fftshift_dim fuel junk t (Z.of_nat (length p)) FFTW_FORWARD = Ok c.
Proof. intros A junk t p l s. exact (shift_dim junk FFTW_FORWARD t p l s). Qed.
Print Assumptions C51_forward_dimension.

(* BACKWARD moves it back *)
Theorem C51_backward_dimension : forall A junk (t : tensor A) p l s,
  wf t -> dims t = p ++ l :: s ->
  exists c, wf c /\ dims c = dims t /\
    (forall u x w, valid p u -> x < l -> valid s w -> elt c (u ++ x :: w) = elt t (u ++ shifted l x :: w)) /\
    exists F, forall fuel, F <= fuel -> fftshift_dim fuel junk t (Z.of_nat (length p)) FFTW_BACKWARD = Ok c.
Proof.
  intros A junk t p l s W D. destruct (shift_dim junk FFTW_BACKWARD t p l s W D) as (c & Wc & Dc & Ec & HF).
  exists c. repeat split; auto. intros u x w Hu Hx Hw. rewrite <- Ec; auto; [|apply Nat.mod_upper_bound; lia]. rewrite target_back by auto. reflexivity.
Qed.
Print Assumptions C51_backward_dimension.

(* the marked dimensions *)
Theorem C51_forward_marked : forall A junk (t : tensor A) convert,
  wf t -> length convert = length (dims t) ->
  exists c, wf c /\ dims c = dims t /\
    (forall ix, valid (dims t) ix -> elt c (shifted_some convert (dims t) ix) = elt t ix) /\
    exists F, forall fuel, F <= fuel -> fftshift_some fuel junk t convert FFTW_FORWARD = Ok c.
Proof.
  intros A junk t conv W L. destruct (some_ok junk FFTW_FORWARD conv t W L) as (c & Wc & Dc & Ec & HF).
  exists c. repeat split; auto. intros ix Hv. rewrite <- targets_forward. auto.
Qed.
Print Assumptions C51_forward_marked.
Theorem C51_backward_marked : forall A junk (t : tensor A) convert,
  wf t -> length convert = length (dims t) ->
  exists c, wf c /\ dims c = dims t /\
    (forall ix, valid (dims t) ix -> elt c ix = elt t (shifted_some convert (dims t) ix)) /\
    exists F, forall fuel, F <= fuel -> fftshift_some fuel junk t convert FFTW_BACKWARD = Ok c.
Proof.
  intros A junk t conv W L. destruct (some_ok junk FFTW_BACKWARD conv t W L) as (c & Wc & Dc & Ec & HF).
  exists c. repeat split; auto. intros ix Hv. rewrite <- Ec by (apply shifted_valid; auto). rewrite targets_back by auto. reflexivity.
Qed.
Print Assumptions C51_backward_marked.

(* all dimensions *)
Theorem C51_forward_all : forall A junk (t : tensor A), wf t ->
  exists c, wf c /\ dims c = dims t /\
    (forall ix, valid (dims t) ix -> elt c (shifted_all (dims t) ix) = elt t ix) /\
    exists F, forall fuel, F <= fuel -> fftshift_all fuel junk t FFTW_FORWARD = Ok c.
Proof.
  intros A junk t W. destruct (C51_forward_marked A junk t (repeat true (length (dims t))) W (repeat_length _ _)) as (c & Wc & Dc & Ec & F & HF).
  exists c. repeat split; auto.
  - intros ix Hv. rewrite <- shifted_trues by (apply valid_length; auto). auto.
  - exists F. intros. rewrite all_some. auto.
Qed.
Print Assumptions C51_forward_all.

(* BACKWARD after FORWARD, and FORWARD after BACKWARD, give the tensor back *)
Theorem C51_inverse_marked : forall A junk (t : tensor A) convert,
  wf t -> length convert = length (dims t) ->
  exists F, forall fuel, F <= fuel ->
    (c <- fftshift_some fuel junk t convert FFTW_FORWARD ;; fftshift_some fuel junk c convert FFTW_BACKWARD) = Ok t /\
    (c <- fftshift_some fuel junk t convert FFTW_BACKWARD ;; fftshift_some fuel junk c convert FFTW_FORWARD) = Ok t.
Proof.
  intros A junk t conv W L.
  destruct (C51_forward_marked A junk t conv W L) as (c & Wc & Dc & Ec & F1 & HF1).
  destruct (C51_backward_marked A junk c conv Wc ltac:(congruence)) as (c' & Wc' & Dc' & Ec' & F2 & HF2).
  destruct (C51_backward_marked A junk t conv W L) as (b & Wb & Db & Eb & F3 & HF3).
  destruct (C51_forward_marked A junk b conv Wb ltac:(congruence)) as (b' & Wb' & Db' & Eb' & F4 & HF4).
  exists (Nat.max (Nat.max F1 F2) (Nat.max F3 F4)). intros fuel Hf. rewrite HF1, HF3 by lia. cbn [bind]. rewrite HF2, HF4 by lia.
  split; f_equal; apply tensor_ext; auto; try congruence.
  - intros ix Hv. rewrite Ec' by congruence. rewrite Dc. auto.
  - intros ix Hv. destruct (unshift_some conv (dims t) ix L Hv) as (i0 & H0 & <-). rewrite <- Eb by auto. rewrite <- Db. apply Eb'. congruence.
Qed.
Print Assumptions C51_inverse_marked.
Theorem C51_inverse_all : forall A junk (t : tensor A), wf t ->
  exists F, forall fuel, F <= fuel ->
    (c <- fftshift_all fuel junk t FFTW_FORWARD ;; fftshift_all fuel junk c FFTW_BACKWARD) = Ok t /\
    (c <- fftshift_all fuel junk t FFTW_BACKWARD ;; fftshift_all fuel junk c FFTW_FORWARD) = Ok t.
Proof.
  intros A junk t W. destruct (C51_inverse_marked A junk t (repeat true (length (dims t))) W (repeat_length _ _)) as (F & HF).
  destruct (some_ok junk FFTW_FORWARD (repeat true (length (dims t))) t W (repeat_length _ _)) as (c1 & _ & D1 & _ & F1 & HF1).
  destruct (some_ok junk FFTW_BACKWARD (repeat true (length (dims t))) t W (repeat_length _ _)) as (c2 & _ & D2 & _ & F2 & HF2).
  exists (Nat.max F (Nat.max F1 F2)). intros fuel Hf. specialize (HF fuel ltac:(lia)). rewrite !all_some. rewrite HF1, HF2 in * by lia. cbn [bind] in *.
  rewrite !all_some, D1, D2. exact HF.
Qed.
Print Assumptions C51_inverse_all.

(* bad arguments *)
Theorem C51_wrong_dimension_rejected : forall A fuel junk (t : tensor A) dim dir,
  ~ (0 <= dim < Z.of_nat (length (dims t)))%Z -> fftshift_dim fuel junk t dim dir = Abort.
Proof. intros. unfold fftshift_dim. replace ((0 <=? dim)%Z && (dim <? Z.of_nat (length (dims t)))%Z) with false by lia. reflexivity. Qed.
Print Assumptions C51_wrong_dimension_rejected.
Theorem C51_wrong_marks_rejected : forall A fuel junk (t : tensor A) convert dir,
  length convert <> length (dims t) -> fftshift_some fuel junk t convert dir = Abort.
Proof. intros. unfold fftshift_some. replace (_ =? _) with false by lia. reflexivity. Qed.
Print Assumptions C51_wrong_marks_rejected.

Example C51_case :
  let t := mkT [5] [10; 11; 12; 13; 14] in
  fftshift_dim 50 (fun _ => 7) t 0 FFTW_FORWARD = Ok (mkT [5] [13; 14; 10; 11; 12]) /\
  fftshift_dim 50 (fun _ => 7) t 0 FFTW_BACKWARD = Ok (mkT [5] [12; 13; 14; 10; 11]) /\
  fftshift_all 50 (fun _ => 7) (mkT [2; 3] [0; 1; 2; 3; 4; 5]) FFTW_FORWARD = Ok (mkT [2; 3] [5; 4; 1; 0; 3; 2]) /\
  fftshift_some 50 (fun _ => 7) (mkT [2; 3] [0; 1; 2; 3; 4; 5]) [true; false] FFTW_FORWARD = Ok (mkT [2; 3] [1; 0; 3; 2; 5; 4]).
Proof. vm_compute. auto. Qed.
