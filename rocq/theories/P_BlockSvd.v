(* C53: block_svd *)
From Coq Require Import QArith Qcanon.
From Verif Require Import Base Spec S_Fold M_Tensor S_Reduce M_Reduce L_Reduce M_Blocks S_Blocks L_Blocks P_Blocks M_BlockSvd S_BlockSvd L_BlockSvd S_Expm M_Expm L_Expm L_Fold L_Permute.
Local Open Scope nat_scope.

(* block_svd returns a decomposition U S VT of the matrix, with S nonnegative
   and in descending order.  The columns of U and rows of VT are of two kinds:
   the [live] ones are orthonormal, the others are zero and belong to a zero of
   S.  They are all live when the blocks together have as many singular values
   as the matrix, or when there is only one block. *)
Theorem C53_block_svd_partial :
  forall (A R T : Type) (N : numops A) (rzero : R) (lt : R -> R -> bool) (inj : R -> A) (absv : A -> R) (divr : A -> R -> A)
    (significant : T -> A -> bool) (zero_tol : T) std_sort_ix svd junk junkr jb (a : tensor A) (n m : nat) (economic : bool),
    numlaws N -> strict_total lt -> is_std_sort std_sort_ix -> polar N lt rzero inj absv divr significant zero_tol ->
    wf a -> dims a = [n; m] -> 0 < n -> 0 < m ->
    economic = true \/ (n = m /\ square_blocks significant zero_tol a) ->
    svd_good_on_blocks N lt rzero inj significant zero_tol svd economic a n m ->
    exists s U VT,
      shapes n m economic s U VT /\ decomposes N rzero inj a n m (Nat.min n m) s U VT /\
      ordered (fun x y => lt y x) (data s) /\ (forall k, k < Nat.min n m -> lt (rval rzero s k) rzero = false) /\
      (exists live : nat -> bool,
         (forall k l, k < Nat.min n m -> l < Nat.min n m -> live k = true -> live l = true ->
            col_prod N U n k l = delta N k l /\ row_prod N VT m k l = delta N k l) /\
         (forall k, k < Nat.min n m -> live k = false ->
            rval rzero s k = rzero /\ (forall i, val N U [i; k] = nzero N) /\ (forall j, val N VT [k; j] = nzero N)) /\
         (forall rows cols, components (nonzeros significant zero_tol a) rows cols ->
            length rows = 1 \/ block_ranks rows cols = Nat.min n m -> forall k, k < Nat.min n m -> live k = true)) /\
      exists F, forall fuel, F <= fuel ->
        block_svd N rzero lt absv divr significant zero_tol std_sort_ix svd junk junkr jb fuel a economic = Ok (s, U, VT).
Proof.
  intros A R T N rzero lt inj absv divr sg z srt svd junk junkr jb a n m economic HN Hlt Hs (Hp1 & Hp2) W D Hn Hm Hmode Hsvd.
  destruct (C52_blocks A T sg z jb junk a n m W D) as (rows & cols & HC & HFB). destruct (Hsvd rows cols HC) as (G1 & G2).
  assert (Hnm : n = m \/ economic = true) by tauto.
  assert (Esh : forall x, (if economic then Nat.min n m else x) = Nat.min n m -> economic = true \/ Nat.min n m = x) by (intros x; destruct economic; auto).
  destruct (Nat.eqb_spec (length rows) 1) as [E1|E1].
  - destruct (G1 E1) as (s & U & VT & Ev & HS). exists s, U, VT. destruct HS as (S1 & S2 & S3 & S4 & S5 & S6). repeat (split; [assumption|]). split.
    + exists (fun _ => true). split; [|split]; [intros; split; auto|discriminate|auto].
    + exists 0. intros fuel _. unfold block_svd. rewrite (dimension_ok a [] n [m] 0 D eq_refl : dimension a 0 = Ok n), (dimension_ok a [n] m [] 1 D eq_refl : dimension a 1 = Ok m). cbn [bind].
      replace (negb (n =? m) && negb economic) with false by (destruct Hnm as [->| ->]; [rewrite Nat.eqb_refl|rewrite andb_false_r]; reflexivity).
      cbv zeta. rewrite HFB. cbn [bind]. exact Ev.
  - destruct (loop_ok N HN rzero lt Hlt inj absv divr sg z Hp1 Hp2 srt Hs svd junk junkr jb a n m W D Hn Hm economic rows cols HC) as (s & U & VT & HR & F & HF); auto.
    + intros b Rs Cs sub Er Ec Hsub H1. exact (G2 E1 b Rs Cs sub Er Ec Hsub H1).
    + destruct Hmode as [|[_ Hsq]]; [auto|]. right. intros b. destruct (lt_dec b (length rows)) as [Hb|Hb].
      * apply (Hsq rows cols b); [exact HC| |]; apply nth_error_nth'; [auto|rewrite <- (proj1 HC); auto].
      * rewrite !nth_overflow by (try rewrite <- (proj1 HC); lia). reflexivity.
    + destruct HR as (R1 & R2 & R3 & R4 & R5 & R6 & R7 & R8 & R9 & p & Pp & R10 & R11).
      exists s, U, VT. split.
      { unfold shapes. repeat (split; [assumption|]). split; [rewrite R4; destruct Hnm as [->| ->]; [rewrite Nat.min_id; destruct economic; reflexivity|reflexivity]|]. split; [assumption|].
        rewrite R6; destruct Hnm as [->| ->]; [rewrite Nat.min_id; destruct economic; reflexivity|reflexivity]. }
      repeat (split; [assumption|]). split; [|eauto].
      exists (fun k => nth k p 0 <? block_ranks rows cols). split; [|split].
      * intros k l Hk Hl K1 K2. apply R10; auto; lia.
      * intros k Hk K1. apply R11; auto; lia.
      * intros rows' cols' HC' Hfull k Hk.
        assert (Hr : block_ranks rows cols = block_ranks rows' cols').
        { apply block_ranks_unique with (1 := HC) (2 := HC'). }
        destruct Hfull as [Hf|Hf].
        -- exfalso. apply E1. rewrite (proj1 (C52_components_unique _ _ _ _ _ HC HC')). exact Hf.
        -- rewrite Hr, Hf. apply Nat.ltb_lt.
           assert (H : In (nth k p 0) p) by (apply nth_In; rewrite <- (Permutation_length Pp), seq_length; auto).
           apply (Permutation_in _ (Permutation_sym Pp)) in H. apply in_seq in H. lia.
Qed.
Print Assumptions C53_block_svd_partial.

(* When the blocks have as many singular values as the matrix, the result is a
   singular value decomposition in every respect. *)
Theorem C53_full_rank :
  forall (A R T : Type) (N : numops A) (rzero : R) (lt : R -> R -> bool) (inj : R -> A) (absv : A -> R) (divr : A -> R -> A)
    (significant : T -> A -> bool) (zero_tol : T) std_sort_ix svd junk junkr jb (a : tensor A) (n m : nat) (economic : bool) rows cols,
    numlaws N -> strict_total lt -> is_std_sort std_sort_ix -> polar N lt rzero inj absv divr significant zero_tol ->
    wf a -> dims a = [n; m] -> 0 < n -> 0 < m ->
    economic = true \/ (n = m /\ square_blocks significant zero_tol a) ->
    svd_good_on_blocks N lt rzero inj significant zero_tol svd economic a n m ->
    components (nonzeros significant zero_tol a) rows cols -> length rows = 1 \/ block_ranks rows cols = Nat.min n m ->
    exists s U VT, is_svd N lt rzero inj a n m economic s U VT /\
      exists F, forall fuel, F <= fuel ->
        block_svd N rzero lt absv divr significant zero_tol std_sort_ix svd junk junkr jb fuel a economic = Ok (s, U, VT).
Proof.
  intros A R T N rzero lt inj absv divr sg z srt svd junk junkr jb a n m economic rows cols HN Hlt Hs Hp W D Hn Hm Hmode Hsvd HC Hf.
  destruct (C53_block_svd_partial A R T N rzero lt inj absv divr sg z srt svd junk junkr jb a n m economic HN Hlt Hs Hp W D Hn Hm Hmode Hsvd)
    as (s & U & VT & S1 & S2 & S3 & S4 & (live & L1 & _ & L3) & HF).
  exists s, U, VT. split; [|exact HF]. split; [exact S1|]. split; [exact S2|]. repeat split; auto; intros k l Hk Hl; apply (L1 k l Hk Hl); apply (L3 rows cols HC Hf); auto.
Qed.
Print Assumptions C53_full_rank.

(* a matrix that is not square, in the mode that is not economic: svd *)
Theorem C53_rectangular :
  forall (A R T : Type) (N : numops A) (rzero : R) (lt : R -> R -> bool) (absv : A -> R) (divr : A -> R -> A)
    (significant : T -> A -> bool) (zero_tol : T) std_sort_ix svd junk junkr jb fuel (a : tensor A) (n m : nat),
    dims a = [n; m] -> n <> m ->
    block_svd N rzero lt absv divr significant zero_tol std_sort_ix svd junk junkr jb fuel a false = svd a false.
Proof.
  intros A R T N rzero lt absv divr sg z srt svd junk junkr jb fuel a n m D Hne. unfold block_svd.
  rewrite (dimension_ok a [] n [m] 0 D eq_refl : dimension a 0 = Ok n), (dimension_ok a [n] m [] 1 D eq_refl : dimension a 1 = Ok m). cbn [bind].
  replace (n =? m) with false by (symmetry; apply Nat.eqb_neq; auto). reflexivity.
Qed.
Print Assumptions C53_rectangular.

(* the rational numbers *)
Definition sig_Qc (tol x : Qc) : bool := Qc_ltb tol (Qc_abs x).
Definition block_svd_Qc svd := block_svd Qcnum (Q2Qc 0) Qc_ltb Qc_abs Qcdiv sig_Qc (Q2Qc 0) insertion_sort svd (fun _ => Q2Qc 9) (fun _ => Q2Qc 8) (fun _ => 77%Z) 50.
Definition qs (l : list Z) : list Qc := map (fun z => Q2Qc (inject_Z z)) l.
Definition shown (r : outcome (tensor Qc * tensor Qc * tensor Qc)) :=
  '(s, U, VT) <- r ;; Ok ((dims s, map this (data s)), (dims U, map this (data U)), (dims VT, map this (data VT))).

(* svd of the row [3 4], in both modes *)
Definition svd34 (t : tensor Qc) (economic : bool) : outcome (tensor Qc * tensor Qc * tensor Qc) :=
  match dims t, map this (data t) with
  | [1; 2], [3 # 1; 4 # 1] =>
      Ok (mkT [1] (qs [5]%Z), mkT [1; 1] (qs [1]%Z),
          if economic then mkT [1; 2] [Q2Qc (3 # 5); Q2Qc (4 # 5)]
          else mkT [2; 2] [Q2Qc (3 # 5); Q2Qc (-4 # 5); Q2Qc (4 # 5); Q2Qc (3 # 5)])
  | _, _ => Abort
  end.

(* A square matrix with blocks that are not square is not decomposed unless the
   economic mode is asked for: the program aborts. *)
Theorem C53_square_refuted :
  let a := mkT [3; 3] (qs [3; 0; 0;  4; 0; 0;  0; 0; 2]%Z) in
  let row := mkT [1; 2] (qs [3; 4]%Z) in
  wf a /\ svd_good Qcnum Qc_ltb (Q2Qc 0) (fun x => x) svd34 false row 1 2 /\
  block_svd_Qc svd34 a false = Abort.
Proof.
  split; [reflexivity|]. split; [|vm_compute; reflexivity].
  do 3 eexists. split; [vm_compute; reflexivity|].
  split; [repeat split|]. split; [|split; [|split; [|split]]].
  - intros i j Hi Hj. assert (i = 0) by lia. assert (j = 0 \/ j = 1) as [->| ->] by lia; subst; apply Qc_is_canon; vm_compute; reflexivity.
  - intros k l Hk Hl. cbn in Hk, Hl. assert (k = 0) by lia. assert (l = 0) by lia. subst. apply Qc_is_canon; vm_compute; reflexivity.
  - intros k l Hk Hl. cbn in Hk, Hl. assert (k = 0) by lia. assert (l = 0) by lia. subst. apply Qc_is_canon; vm_compute; reflexivity.
  - intros k Hk. cbn in Hk. assert (k = 0) by lia. subst. vm_compute. reflexivity.
  - intros i j x y Hij Hx Hy. assert (j < 1) by (apply nth_error_lt_inv in Hy; exact Hy). lia.
Qed.
Print Assumptions C53_square_refuted.

(* The documented U and VT are unitary; those of a matrix with a zero row and a
   zero column are not: their last column and row are zero. *)
Theorem C53_unitary_refuted : forall svd,
  let a := mkT [3; 3] (qs [1; 0; 0;  0; 2; 0;  0; 0; 0]%Z) in
  wf a /\
  shown (block_svd_Qc svd a false) =
    Ok (([3], [2 # 1; 1; 0]%Q), ([3; 3], [0; 1; 0;  1; 0; 0;  0; 0; 0]%Q), ([3; 3], [0; 1; 0;  1; 0; 0;  0; 0; 0]%Q)).
Proof. intros svd a. split; [reflexivity|]. vm_compute. reflexivity. Qed.
Print Assumptions C53_unitary_refuted.

Lemma polar_Qc : polar Qcnum Qc_ltb (Q2Qc 0) (fun x => x) Qc_abs Qcdiv sig_Qc (Q2Qc 0).
Proof.
  split.
  - intros x H. apply Qc_ltb_lt in H. cbn [Qcnum nmul nconj none_]. assert (Hn : Qc_abs x <> Q2Qc 0) by (intros E; rewrite E in H; apply Qclt_not_eq in H; congruence).
    split; [apply Qcmult_div_r; auto|]. split.
    + assert (Hx : (x / Qc_abs x)%Qc = Q2Qc 1 \/ (x / Qc_abs x)%Qc = (- Q2Qc 1)%Qc).
      { unfold Qc_abs in *. destruct (Qle_bool 0 x); [left|right]; field; auto. }
      destruct Hx as [-> | ->]; ring.
    + apply Qc_ltb_ge. apply Qclt_le_weak. auto.
  - intros x H. apply Qc_ltb_ge in H. destruct (Qc_eq_dec x (Q2Qc 0)) as [|Hx]; [auto|]. apply Qc_abs_pos in Hx. exfalso. exact (Qclt_not_le _ _ Hx H).
Qed.

(* a 2x3 matrix with the blocks [3 4] and [7], whose singular values are sorted
   at the end *)
Example C53_meets :
  let a := mkT [2; 3] (qs [3; 0;  4; 0;  0; 7]%Z) in
  polar Qcnum Qc_ltb (Q2Qc 0) (fun x => x) Qc_abs Qcdiv sig_Qc (Q2Qc 0) /\ strict_total Qc_ltb /\ is_std_sort (@insertion_sort nat) /\ wf a /\
  components (nonzeros sig_Qc (Q2Qc 0) a) [[0]; [1]] [[0; 1]; [2]] /\ block_ranks [[0]; [1]] [[0; 1]; [2]] = 2 /\
  svd_good_on_blocks Qcnum Qc_ltb (Q2Qc 0) (fun x => x) sig_Qc (Q2Qc 0) svd34 true a 2 3 /\
  shown (block_svd_Qc svd34 a true) = Ok (([2], [7 # 1; 5 # 1]%Q), ([2; 2], [0; 1;  1; 0]%Q), ([2; 3], [0; 3 # 5;  0; 4 # 5;  1; 0]%Q)).
Proof.
  intros a. split; [exact polar_Qc|]. split; [exact Qc_ltb_total|]. split; [intros lt l Hw; apply insertion_sort_ok; auto|]. split; [reflexivity|].
  assert (HC : components (nonzeros sig_Qc (Q2Qc 0) a) [[0]; [1]] [[0; 1]; [2]]).
  { destruct (C52_blocks Qc Qc sig_Qc (Q2Qc 0) (fun _ => 77%Z) (fun _ => Q2Qc 9) a 2 3 eq_refl eq_refl) as (rows & cols & HC & HF).
    assert (HF' : find_blocks sig_Qc (Q2Qc 0) (fun _ => 77%Z) (fun _ => Q2Qc 9) a (Q2Qc 0) = Ok (2%Z, Some ([[0]; [1]], [[0; 1]; [2]]))) by (vm_compute; reflexivity).
    rewrite HF' in HF. destruct (length rows =? 1)%nat; [discriminate|]. injection HF as _ <- <-. exact HC. }
  split; [exact HC|]. split; [reflexivity|]. split; [|vm_compute; reflexivity].
  intros rows cols HC'. destruct (C52_components_unique _ _ _ _ _ HC' HC) as (HL & HU). split; [cbn in HL; lia|].
  intros _ b Rs Cs sub Er Ec (Ws & Ds & He) H1.
  destruct (HU b Rs Cs Er Ec) as (b' & Er' & Ec').
  assert (HRC : (Rs = [0] /\ Cs = [0; 1]) \/ (Rs = [1] /\ Cs = [2])).
  { destruct b' as [|[|b']]; cbn in Er', Ec'; [injection Er' as <-; injection Ec' as <-; auto|injection Er' as <-; injection Ec' as <-; auto|destruct b'; discriminate]. }
  destruct HRC as [[-> ->]|[-> ->]]; [|cbn in H1; lia].
  assert (Es : sub = mkT [1; 2] (qs [3; 4]%Z)).
  { destruct sub as [ds d]. cbn [dims data] in *. subst ds. cbn in Ws. destruct d as [|d0 [|d1 [|]]]; try discriminate. pose proof (He 0 0 0 0 eq_refl eq_refl) as E0. pose proof (He 0 1 0 1 eq_refl eq_refl) as E1.
    cbv [elt validb lin dims data nth_error Nat.ltb Nat.leb andb Nat.add Nat.mul a qs map] in E0, E1. cbn in E0, E1. injection E0 as ->. injection E1 as ->. reflexivity. }
  subst sub. do 3 eexists. split; [vm_compute; reflexivity|].
  split; [repeat split|]. split; [|split; [|split; [|split]]].
  - intros i j Hi Hj. cbn in Hi, Hj. assert (i = 0) by lia. assert (j = 0 \/ j = 1) as [->| ->] by lia; subst; apply Qc_is_canon; vm_compute; reflexivity.
  - intros k l Hk Hl. cbn in Hk, Hl. assert (k = 0) by lia. assert (l = 0) by lia. subst. apply Qc_is_canon; vm_compute; reflexivity.
  - intros k l Hk Hl. cbn in Hk, Hl. assert (k = 0) by lia. assert (l = 0) by lia. subst. apply Qc_is_canon; vm_compute; reflexivity.
  - intros k Hk. cbn in Hk. assert (k = 0) by lia. subst. vm_compute. reflexivity.
  - intros i j x y Hij Hx Hy. assert (j < 1) by (apply nth_error_lt_inv in Hy; exact Hy). lia.
Qed.
