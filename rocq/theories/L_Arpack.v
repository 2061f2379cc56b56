(* Proofs about the iterative eigenvalue solver. *)
From Verif Require Import Base Spec S_Fold M_Tensor M_Arith M_Range S_Range M_Fold M_Reduce S_Reduce M_BlockSvd M_Eig S_Eig S_Sparse M_Sparse S_Cgs S_Arpack M_Arpack
  L_Lin L_Tensor L_Range L_Fold L_Kron L_Arith L_Permute L_Reduce L_BlockSvd L_Fftw L_Solve L_Eig L_Cgs L_Sparse7.
From Coq Require Import String List.
Import ListNotations.
Notation app := S_Cgs.app (only parsing).
Local Open Scope nat_scope.

Lemma rdZ_nat {A} (l : list A) (i : nat) : rdZ l (Z.of_nat i) = rd l i.
Proof. unfold rdZ. replace (Z.of_nat i <? 0)%Z with false by lia. rewrite Nat2Z.id. reflexivity. Qed.
Lemma wrZ_nat {A} (l : list A) (i : nat) v : wrZ l (Z.of_nat i) v = wr l i v.
Proof. unfold wrZ. replace (Z.of_nat i <? 0)%Z with false by lia. rewrite Nat2Z.id. reflexivity. Qed.

Lemma read_block_ok {E} (zero : E) l x n : x + n <= List.length l ->
  read_block l (Z.of_nat x) n = Ok (map (fun i => nth (x + i) l zero) (seq 0 n)).
Proof.
  intros H. unfold read_block. apply mapM_ok. intros i Hi. apply in_seq in Hi. rewrite <- Nat2Z.inj_add, rdZ_nat. apply rd_nth. lia.
Qed.
Lemma write_block_ok {E} (l src : list E) y n : y + n <= List.length l -> n <= List.length src ->
  exists l', write_block l (Z.of_nat y) n src = Ok l' /\ List.length l' = List.length l /\
    (forall i, i < n -> nth_error l' (y + i) = nth_error src i) /\ (forall k, k < y \/ y + n <= k -> nth_error l' k = nth_error l k).
Proof.
  intros Hy Hs. unfold write_block.
  destruct (for_inv (fun m l' => List.length l' = List.length l /\
    (forall i, i < m -> nth_error l' (y + i) = nth_error src i) /\ (forall k, k < y \/ y + m <= k -> nth_error l' k = nth_error l k)) n
    (fun i l => x <- rd src i ;; wrZ l (Z.of_nat y + Z.of_nat i)%Z x) l) as (l' & E0 & H1 & H2 & H3).
  - split; [auto|]. split; [intros; lia|auto].
  - intros i s Hi (H1 & H2 & H3). destruct (nth_error_lt src i ltac:(lia)) as (v & Hv). rewrite (rd_ok _ _ _ Hv). cbn [bind].
    rewrite <- Nat2Z.inj_add, wrZ_nat, wr_ok by lia. eexists. split; [reflexivity|]. split; [rewrite length_upd; auto|]. split.
    + intros q Hq. destruct (Nat.eq_dec q i) as [->|]; [rewrite nth_error_upd_eq by lia; auto|]. rewrite nth_error_upd_ne by lia. apply H2. lia.
    + intros k Hk. rewrite nth_error_upd_ne by lia. apply H3. lia.
  - exists l'. auto.
Qed.

Section Dlg.
Context {E S : Type} (zero : E) (n : nat) (f : (nat -> E) -> nat -> E).
Lemma blocks_fun (s : io E S) x y x' y' : blocks_ok n s x y -> blocks_ok n s x' y' -> x = x' /\ y = y'.
Proof. unfold blocks_ok. intros (H1 & H2 & _) (H3 & H4 & _). lia. Qed.
Lemma answered_fun (s s1 s2 : io E S) : answered zero n f s s1 -> answered zero n f s s2 -> s1 = s2.
Proof.
  intros (x & y & w & B & Hl & H1 & H2 & ->) (x' & y' & w' & B' & Hl' & H1' & H2' & ->). destruct (blocks_fun _ _ _ _ _ B B') as [<- <-].
  assert (w = w') as <-; [|reflexivity]. apply list_eq_nth. intros k. destruct (lt_dec k y) as [|Hk]; [rewrite H2, H2' by auto; auto|].
  destruct (le_dec (y + n) k) as [|Hk']; [rewrite H2, H2' by auto; auto|]. replace k with (y + (k - y)) by lia. rewrite H1, H1' by lia. reflexivity.
Qed.
End Dlg.

Section Drive.
Context {E S T : Type} (N : numops E) (aupd : problem T -> io E S -> io E S).
Notation object := (@object E S T).
Notation zero := (nzero N).
Context (p : problem T) (f : (nat -> E) -> nat -> E).
Notation n := (p_n p).
Context (step : object -> outcome object).

(* the body of the loop answers *)
Definition answers : Prop := forall (s : io E S) x y, blocks_ok n s x y ->
  exists s1, step (mkObj Running p s) = Ok (mkObj Running p s1) /\ answered zero n f s s1.

Definition verdict (s : io E S) : outcome status :=
  if (io_ido s =? 99)%Z then
    if (io_info s =? 1)%Z then Ok TooManyIterations
    else if (0 <? io_info s)%Z then Ok NoConvergence
    else if (io_info s <? 0)%Z then Abort
    else Ok Finished
  else Ok Error.

Lemma drive_ok s s' : answers -> dialogue zero (aupd p) n f s s' ->
  exists F, forall fuel st, F <= fuel -> st = Initialized \/ st = Running ->
    drive aupd fuel step (mkObj st p s) = (v <- verdict s' ;; Ok (mkObj v p s')).
Proof.
  intros HA D. induction D as [s Hn|s s1 s' Ha An D (F & IH)].
  - exists 1. intros [|fuel] st Hf Hst; [lia|]. cbn [drive]. unfold update. cbn [ob_status ob_problem ob_io].
    replace (status_lt st Initialized) with false by (destruct Hst; subst; reflexivity).
    replace (status_lt Running st) with false by (destruct Hst; subst; reflexivity).
    unfold verdict. unfold asks in Hn. set (s' := aupd p s) in *.
    destruct (Z.eqb_spec (io_ido s') 99).
    + destruct (io_info s' =? 1)%Z; [reflexivity|]. destruct (0 <? io_info s')%Z; [reflexivity|]. destruct (io_info s' <? 0)%Z; reflexivity.
    + replace (io_ido s' =? 1)%Z with false by lia. replace (io_ido s' =? -1)%Z with false by lia. reflexivity.
  - exists (Datatypes.S F). intros [|fuel] st Hf Hst; [lia|]. cbn [drive]. unfold update. cbn [ob_status ob_problem ob_io].
    replace (status_lt st Initialized) with false by (destruct Hst; subst; reflexivity).
    replace (status_lt Running st) with false by (destruct Hst; subst; reflexivity).
    unfold asks in Ha. set (s2 := aupd p s) in *.
    replace (io_ido s2 =? 99)%Z with false by lia.
    replace (negb (io_ido s2 =? 1)%Z && negb (io_ido s2 =? -1)%Z) with false by lia. cbn [bind ob_status status_lt status_int Nat.ltb Nat.leb].
    pose proof An as (x & y & w & B & _). destruct (HA s2 x y B) as (s3 & Es & An'). rewrite Es. cbn [bind].
    rewrite (answered_fun _ _ _ _ _ _ An' An). apply IH; [lia|auto].
Qed.

Lemma answered_intro (s : io E S) x y w (r : nat -> E) : blocks_ok n s x y -> List.length w = List.length (io_workd s) ->
  (forall i, i < n -> r i = f (fun j => nth (x + j) (io_workd s) zero) i) ->
  (forall i, i < n -> nth_error w (y + i) = Some (r i)) -> (forall k, k < y \/ y + n <= k -> nth_error w k = nth_error (io_workd s) k) ->
  answered zero n f s (mkIO (io_state s) (io_ido s) (io_info s) (io_resid s) w (io_x s) (io_y s)).
Proof. intros B Hl Hr H1 H2. exists x, y, w. split; [auto|]. split; [auto|]. split; [|auto]. intros i Hi. rewrite H1, Hr; auto. Qed.
End Drive.

Section Steps.
Context {E S T : Type} (N : numops E) (p : problem T).
Notation n := (p_n p).
Notation zero := (nzero N).

Lemma nth_map_seq0 {A} (g : nat -> A) m i d : i < m -> nth i (map g (seq 0 m)) d = g i.
Proof. intros Hi. erewrite nth_error_nth; [reflexivity|]. rewrite nth_error_map, nth_error_seq0 by auto. reflexivity. Qed.

Lemma dense_answers (A : tensor E) : wf A -> dims A = [n; n] -> answers (S := S) N p (app N n (fun i k => val N A [i; k])) (dense_step N n A).
Proof.
  intros W D s x y B. pose proof B as (Ex & Ey & Lx & Ly & Hd). unfold dense_step, get_x_vector, get_y_vector. cbn [ob_status ob_io ob_problem bind].
  rewrite Ex, Ey. replace (Z.of_nat x + 1 - 1)%Z with (Z.of_nat x) by lia. replace (Z.of_nat y + 1 - 1)%Z with (Z.of_nat y) by lia.
  unfold gemv.
  assert (Hov : ((Z.of_nat x <? Z.of_nat y + Z.of_nat n) && (Z.of_nat y <? Z.of_nat x + Z.of_nat n))%Z = false) by lia.
  rewrite Hov. rewrite (read_block_ok zero) by auto. cbn [bind].
  set (xs := map (fun i => nth (x + i) (io_workd s) zero) (seq 0 n)).
  set (r := app N n (fun i k => val N A [i; k]) (fun j => nth (x + j) (io_workd s) zero)).
  rewrite (mapM_ok _ r).
  2:{ intros i Hi. apply in_seq in Hi. unfold r, app. apply dot_ok. intros j a Hj.
      assert (Ln : List.length (data A) = n * n) by (rewrite W, D; cbn; lia).
      rewrite (rd_nth (data A) _ zero) by nia. cbn [bind]. unfold xs. rewrite (rd_nth _ j zero) by (rewrite map_length, seq_length; auto). cbn [bind].
      rewrite nth_map_seq0 by auto. unfold val. rewrite (mat_nth A n n i j zero) by (auto; lia). reflexivity. }
  cbn [bind]. destruct (write_block_ok (io_workd s) (map r (seq 0 n)) y n Ly) as (w & Ew & Lw & H1 & H2); [rewrite map_length, seq_length; auto|].
  rewrite Ew. cbn [bind]. eexists. split; [reflexivity|]. cbn [ob_io ob_status ob_problem]. apply (answered_intro N p _ s x y w r); auto.
  intros i Hi. rewrite H1 by auto. rewrite nth_error_map, nth_error_seq0 by auto. reflexivity.
Qed.

Lemma map_answers (g : tensor E -> outcome (tensor E)) f : operator_is zero g n f -> local_op n f -> answers (S := S) N p f (map_step g).
Proof.
  intros HO HLo s x y B. pose proof B as (Ex & Ey & Lx & Ly & Hd). unfold map_step, get_x, set_y, get_x_vector, get_y_vector. cbn [ob_status ob_io ob_problem bind].
  rewrite Ex, Ey. replace (Z.of_nat x + 1 - 1)%Z with (Z.of_nat x) by lia. replace (Z.of_nat y + 1 - 1)%Z with (Z.of_nat y) by lia.
  rewrite (read_block_ok zero) by auto. cbn [bind].
  set (xs := map (fun i => nth (x + i) (io_workd s) zero) (seq 0 n)).
  destruct (HO (mkT [n] xs)) as (u & Eu & Wu & Du & Hu); [|reflexivity|].
  { unfold wf, xs. cbn [data dims]. rewrite map_length, seq_length. cbn. lia. }
  rewrite Eu. cbn [bind]. assert (Lu : List.length (data u) = n) by (rewrite Wu, Du; cbn; lia).
  destruct (write_block_ok (io_workd s) (data u) y n Ly) as (w & Ew & Lw & H1 & H2); [lia|].
  rewrite Ew. cbn [bind]. eexists. split; [reflexivity|]. cbn [ob_io ob_status ob_problem]. apply (answered_intro N p _ s x y w (fun i => nth i (data u) zero)); auto.
  - intros i Hi. rewrite Hu by auto. apply HLo; [|auto]. intros j Hj. cbn [data]. unfold xs. apply (nth_map_seq0 (fun i => nth (x + i) (io_workd s) zero)). auto.
  - intros i Hi. rewrite H1 by auto. apply nth_error_nth'. lia.
Qed.
End Steps.

Section Iterative.
Context {E S T : Type} (N : numops E) (rp : bool) (default_tol : T).
Context (aupd : problem T -> io E S -> io E S).
Context (eupd : problem T -> bool -> io E S -> list E -> list E -> Z * list E * list E).
Context (junk : nat -> E) (junk_state : S).
Notation zero := (nzero N).

Lemma code_read t code : arpack_code rp t = Some code ->
  negb (rp && ((eigtype_int t =? 4)%Z || (eigtype_int t =? 5)%Z)) = true /\
  negb ((eigtype_int t <? 0)%Z || (6 <? eigtype_int t)%Z) = true /\ rdZ (whichs rp) (eigtype_int t) = Ok code.
Proof using Type. clear aupd eupd N junk junk_state default_tol. destruct t, rp; cbn; intros H; try discriminate; injection H as <-; auto. Qed.

Lemma firstn_slice (d : list E) nev : List.length d = nev + 1 -> 0 < nev ->
  exists F, forall fuel, F <= fuel -> slice_t fuel junk (mkT [nev + 1] d) [SStep 0 (Z.of_nat nev - 1) 1] = Ok (mkT [nev] (firstn nev d)).
Proof.
  intros Ld Hn. destruct (slice_t_vec junk (mkT [nev + 1] d) (nev + 1) (SStep 0 (Z.of_nat nev - 1) 1) (arith 0 1 nev)) as (u & (Wu & Du & Hu) & F & HF); auto.
  - unfold wf. cbn [data dims]. rewrite Ld. cbn. lia.
  - lia.
  - replace (Z.of_nat nev - 1)%Z with (Z.of_nat (nev - 1)) by lia. replace (arith 0 1 nev) with (arith 0 1 ((nev - 1 - 0) / 1 + 1)); [apply (sel_step (nev + 1) 0 (nev - 1) 1); lia|]. f_equal. rewrite Nat.div_1_r. lia.
  - exists F. intros fuel Hf. rewrite HF by auto. f_equal. destruct u as [du u]. cbn [dims data] in *.
    assert (Lar : List.length (arith 0 1 nev) = nev) by (unfold arith; rewrite map_length, seq_length; auto). rewrite Lar in Du. subst du. f_equal.
    assert (Lu : List.length u = nev) by (unfold wf in Wu; cbn [data dims] in Wu; rewrite Wu; cbn; lia).
    apply list_eq_nth_len; [rewrite firstn_length; lia|]. intros i Hi. rewrite Lu in Hi. rewrite (Hu i i).
    + rewrite <- (firstn_skipn nev d) at 1. rewrite nth_error_app1; [reflexivity|rewrite firstn_length; lia].
    + unfold arith. rewrite nth_error_map, nth_error_seq0 by auto. cbn. f_equal. lia.
Qed.

Definition init_io (n : nat) (vectors : option (tensor E)) : io E S :=
  match vectors with
  | Some v => if n <=? List.length (data v)
    then mkIO junk_state 0%Z 1%Z (firstn n (data v)) (alloc junk (n * 3)) 0%Z 0%Z
    else mkIO junk_state 0%Z 0%Z (alloc junk n) (alloc junk (n * 3)) 0%Z 0%Z
  | None => mkIO junk_state 0%Z 0%Z (alloc junk n) (alloc junk (n * 3)) 0%Z 0%Z
  end.
Definition init_problem (n : nat) (code : string) (nev : nat) : problem T :=
  let ncv := Nat.min (Nat.max (2 * nev) 20) n in
  mkProblem n code nev default_tol ncv (Nat.max 300 ((2 * n + Nat.max ncv 1 - 1) / Nat.max ncv 1))
    (if rp then ncv * (ncv + 8) else ncv * (3 * ncv + 5)).

Lemma arpack_new_ok n t code nev : arpack_code rp t = Some code -> 0 < nev -> nev < n ->
  arpack_new rp default_tol junk junk_state n (eigtype_int t) nev = Ok (mkObj Initialized (init_problem n code nev) (init_io n None)).
Proof using Type. clear aupd eupd N.
  intros Hc H0 H1. destruct (code_read t code Hc) as (C1 & C2 & C3). unfold arpack_new. rewrite C1. cbn [assert_ bind]. rewrite C2. cbn [assert_ bind]. rewrite C3. cbn [bind].
  replace (nev =? 0) with false by lia. replace (n - 1 <? nev) with false by lia. reflexivity.
Qed.

Lemma start_ok n code nev (vectors : option (tensor E)) : 
  match vectors with
  | Some v => if n <=? List.length (data v) then set_start_vector (mkObj Initialized (init_problem n code nev) (init_io n None)) (data v) else Ok (mkObj Initialized (init_problem n code nev) (init_io n None))
  | None => Ok (mkObj Initialized (init_problem n code nev) (init_io n None))
  end = Ok (mkObj Initialized (init_problem n code nev) (init_io n vectors)).
Proof using Type. clear aupd eupd N.
  destruct vectors as [v|]; [|reflexivity]. cbn [init_io]. destruct (Nat.leb_spec n (List.length (data v))); [|reflexivity].
  unfold set_start_vector. cbn [ob_status ob_io ob_problem status_lt status_int Nat.ltb Nat.leb assert_ bind init_problem p_n init_io io_resid io_state io_ido io_workd io_x io_y].
  destruct (write_block_ok (alloc junk n) (data v) 0 n) as (r & Er & Lr & H1 & _); [rewrite length_alloc; lia|auto|].
  change (Z.of_nat 0) with 0%Z in Er. rewrite Er. cbn [bind]. replace r with (firstn n (data v)); [reflexivity|].
  rewrite length_alloc in Lr. apply list_eq_nth_len; [rewrite firstn_length; lia|]. intros i Hi. rewrite firstn_length in Hi.
  specialize (H1 i ltac:(lia)). cbn [Nat.add] in H1. rewrite H1.
  rewrite <- (firstn_skipn n (data v)) at 2. rewrite nth_error_app1; [reflexivity|rewrite firstn_length; lia].
Qed.

Lemma init_first n vectors : first_call n vectors (init_io n vectors).
Proof using Type. clear aupd eupd N.
  unfold first_call, init_io. destruct vectors as [v|]; [destruct (n <=? List.length (data v)) eqn:H|]; cbn [io_ido io_workd io_info io_resid]; rewrite length_alloc; repeat split; lia.
Qed.
Lemma init_legal n t code nev : arpack_code rp t = Some code -> 0 < nev -> nev < n -> legal rp (init_problem n code nev).
Proof using Type. clear aupd eupd N junk junk_state.
  intros Hc H0 H1. unfold legal, init_problem. cbn [p_n p_which p_nev p_tol p_ncv p_maxit p_lworkl].
  set (ncv := Nat.min (Nat.max (2 * nev) 20) n). assert (nev + 1 <= ncv <= n) by lia.
  split; [auto|]. split; [lia|]. split; [lia|]. split; [lia|].
  destruct rp; (split; [nia|]); destruct t; cbn in Hc; try discriminate; injection Hc as <-; cbn; tauto.
Qed.

Lemma iterative_ok n t code nev vectors conv step f s' : arpack_code rp t = Some code -> 0 < nev -> nev < n ->
  answers N (init_problem n code nev) f step -> dialogue zero (aupd (init_problem n code nev)) n f (init_io n vectors) s' ->
  exists F, forall fuel, F <= fuel ->
    arpack_returns zero eupd (init_problem n code nev) s' vectors conv
      (eigs_iterative N rp default_tol aupd eupd junk junk_state fuel step n (eigtype_int t) nev vectors conv).
Proof.
  intros Hc H0 H1 HA D. destruct (drive_ok N aupd (init_problem n code nev) f step (init_io n vectors) s' HA D) as (F & HF).
  set (want := match vectors with Some _ => true | None => false end).
  destruct (eupd (init_problem n code nev) want s' (alloc junk (nev + 1)) (if want then alloc junk (n * nev) else [])) as [[info d] z] eqn:Eu.
  assert (HS : exists F2, forall fuel, F2 <= fuel -> List.length d = nev + 1 ->
    slice_t fuel junk (mkT [nev + 1] d) [SStep 0 (Z.of_nat nev - 1) 1] = Ok (mkT [nev] (firstn nev d))).
  { destruct (Nat.eq_dec (List.length d) (nev + 1)) as [Hd|Hd]; [|exists 0; intros; contradiction].
    destruct (firstn_slice d nev Hd H0) as (F2 & H2). exists F2. auto. }
  destruct HS as (F2 & HS). exists (Nat.max F F2). intros fuel Hf.
  assert (R : eigs_iterative N rp default_tol aupd eupd junk junk_state fuel step n (eigtype_int t) nev vectors conv =
    (v <- verdict s' ;;
     match v with
     | Finished => '(v, z) <- get_data eupd junk fuel (mkObj v (init_problem n code nev) s') want ;; Ok (v, z, ask_converged conv true)
     | _ => if conv then z <- zeros N junk [nev] ;; Ok (z, vectors, Some false) else Abort
     end)).
  { unfold eigs_iterative. rewrite (arpack_new_ok n t code nev Hc H0 H1). cbn [bind]. rewrite start_ok. cbn [bind]. rewrite HF by (auto; lia).
    destruct (verdict s') as [v| | |]; reflexivity. }
  rewrite R. clear R HF HA D. unfold arpack_returns. cbn [init_problem p_n p_nev]. fold want. fold (init_problem n code nev).
  assert (Z0 : zeros N junk [nev] = Ok (mkT [nev] (repeat zero nev))).
  { unfold zeros. rewrite fill_ok. cbn [new_tensor dims data]. rewrite length_alloc. rewrite total_size_nelem, nelem_1. reflexivity. }
  split; [|split].
  - intros Ei Hi. unfold verdict. rewrite Ei. cbn [Z.eqb Pos.eqb]. replace (io_info s' =? 1)%Z with false by lia. replace (0 <? io_info s')%Z with false by lia. replace (io_info s' <? 0)%Z with true by lia. reflexivity.
  - intros Hi. assert (V : verdict s' = Abort \/ exists v, verdict s' = Ok v /\ v <> Finished) by
      (unfold verdict; destruct (Z.eqb_spec (io_ido s') 99); [destruct (Z.eqb_spec (io_info s') 1); [right; eexists; split; [reflexivity|discriminate]|]; destruct (Z.ltb_spec 0 (io_info s')); [right; eexists; split; [reflexivity|discriminate]|lia]|right; eexists; split; [reflexivity|discriminate]]).
    destruct V as [V|(v & V & Hv)].
    + exfalso. unfold verdict in V. destruct (Z.eqb_spec (io_ido s') 99); [|discriminate]. destruct (Z.eqb_spec (io_info s') 1); [discriminate|]. destruct (Z.ltb_spec 0 (io_info s')); [discriminate|]. lia.
    + rewrite V. cbn [bind]. rewrite Z0. destruct v; try reflexivity. contradiction.
  - intros Ei Hi. exists (alloc junk (nev + 1)), (if want then alloc junk (n * nev) else []). split; [apply length_alloc|]. split; [destruct want; [apply length_alloc|reflexivity]|].
    intros info' d' z' Eu'. rewrite Eu in Eu'. injection Eu' as <- <- <-.
    assert (V : verdict s' = Ok Finished) by (unfold verdict; rewrite Ei, Hi; reflexivity). rewrite V. cbn [bind].
    assert (Ed : data (new_tensor junk [nev + 1]) = alloc junk (nev + 1)) by (cbn [new_tensor data]; rewrite total_size_nelem; f_equal; cbn; lia).
    assert (Ez : data (new_tensor junk [n; nev]) = alloc junk (n * nev)) by (cbn [new_tensor data]; rewrite total_size_nelem; f_equal; cbn; lia).
    unfold get_data. cbn [ob_problem ob_io]. change (p_n (init_problem n code nev)) with n. change (p_nev (init_problem n code nev)) with nev.
    rewrite Ed, Ez, Eu. split.
    + intros Hinfo. replace (info =? 0)%Z with false by lia. reflexivity.
    + intros -> Ld. cbn [Z.eqb assert_ bind]. rewrite HS by (auto; lia). cbn [bind]. unfold ask_converged. reflexivity.
Qed.
End Iterative.

Lemma answered_total {E S} (zero : E) n f (s : io E S) x y : blocks_ok n s x y -> exists s1, answered zero n f s s1.
Proof.
  intros B. pose proof B as (_ & _ & Hx & Hy & _). set (l := io_workd s). set (r := map (f (fun j => nth (x + j) l zero)) (seq 0 n)).
  assert (Lr : List.length r = n) by (unfold r; rewrite map_length, seq_length; auto).
  set (w := firstn y l ++ r ++ skipn (y + n) l).
  assert (Lf : List.length (firstn y l) = y) by (rewrite firstn_length; unfold l; lia).
  exists (mkIO (io_state s) (io_ido s) (io_info s) (io_resid s) w (io_x s) (io_y s)), x, y, w. split; [auto|]. split; [|split; [|split; [|reflexivity]]].
  - unfold w. rewrite !app_length, Lf, Lr, skipn_length. unfold l. lia.
  - intros i Hi. unfold w. rewrite nth_error_app2 by lia. rewrite nth_error_app1 by lia. rewrite Lf. replace (y + i - y) with i by lia.
    unfold r. rewrite nth_error_map, nth_error_seq0 by auto. reflexivity.
  - intros k [Hk|Hk]; unfold w.
    + rewrite nth_error_app1 by lia. fold l. rewrite <- (firstn_skipn y l) at 2. rewrite nth_error_app1 by lia. reflexivity.
    + rewrite nth_error_app2 by lia. rewrite nth_error_app2 by lia. rewrite Lf, Lr. fold l. rewrite <- (firstn_skipn (y + n) l) at 2.
      rewrite nth_error_app2 by (rewrite firstn_length; unfold l; lia). f_equal. rewrite firstn_length. unfold l. lia.
Qed.

Lemma app_local {E} (N : numops E) n (a : nat -> nat -> E) : local_op n (app N n a).
Proof. intros u v H i _. unfold S_Cgs.app. apply sum_ext. intros k Hk. rewrite H by auto. reflexivity. Qed.

Section Full.
Context {E R C S T : Type} (N : numops E) (NC : numops C) (rp : bool) (default_tol : T).
Context (aupd : problem T -> io E S -> io E S).
Context (eupd : problem T -> bool -> io E S -> list E -> list E -> Z * list E * list E).
Context (junk : nat -> E) (junk_state : S).
Context (proj : C -> E) (to_c : E -> C) (re im modulus : C -> R) (neg : R -> R) (lt : R -> R -> bool).
Context (sorter : (nat -> nat -> bool) -> list nat -> list nat) (junkc : nat -> C).
Context (eigE : tensor E -> bool -> bool -> outcome (tensor C * option (tensor C) * option (tensor C))).
Context (eigC : tensor C -> bool -> bool -> outcome (tensor C * option (tensor C) * option (tensor C))).
Notation zero := (nzero N).
Notation full := (eigs_full N rp default_tol aupd eupd junk junk_state proj re im modulus neg lt sorter junkc eigE).
Notation domap := (do_eigs N rp default_tol aupd eupd junk junk_state proj to_c re im modulus neg lt sorter junkc eigC).
Notation iter := (eigs_iterative N rp default_tol aupd eupd junk junk_state).

Lemma full_large fuel (A : tensor E) n t neig vectors conv : dims A = [n; n] -> 4 < n -> 0 < neig -> neig <= n ->
  full fuel A t neig vectors conv = iter fuel (dense_step N n A) n t neig vectors conv.
Proof using Type. clear NC to_c eigC.
  intros D H4 H0 H1. unfold eigs_full. rewrite (dimension_ok A [n] n [] 1 D eq_refl : dimension A 1 = Ok n), (dimension_ok A [] n [n] 0 D eq_refl : dimension A 0 = Ok n). cbn [bind].
  rewrite D. cbn [List.length Nat.eqb assert_ bind]. rewrite Nat.eqb_refl. cbn [assert_ bind].
  replace (n <? neig) with false by lia. replace (neig =? 0) with false by lia. cbn [orb negb assert_ bind]. replace (n <=? 4) with false by lia. reflexivity.
Qed.
Lemma full_small fuel (A : tensor E) n t neig vectors conv : dims A = [n; n] -> n <= 4 -> 0 < neig -> neig <= n ->
  full fuel A (eigtype_int t) neig vectors conv =
  ('(v, z) <- eigs proj rp re im modulus neg lt sorter junkc (fun _ _ _ => UB) eigE fuel A t neig (match vectors with Some _ => true | None => false end) ;;
   Ok (v, z, ask_converged conv true)).
Proof using Type. clear NC to_c eigC.
  intros D H4 H0 H1. unfold eigs_full. rewrite (dimension_ok A [n] n [] 1 D eq_refl : dimension A 1 = Ok n), (dimension_ok A [] n [n] 0 D eq_refl : dimension A 0 = Ok n). cbn [bind].
  rewrite D. cbn [List.length Nat.eqb assert_ bind]. rewrite Nat.eqb_refl. cbn [assert_ bind].
  replace (n <? neig) with false by lia. replace (neig =? 0) with false by lia. cbn [orb negb assert_ bind]. replace (n <=? 4) with true by lia.
  destruct t; reflexivity.
Qed.
Lemma domap_large fuel f n t neig vectors conv : 4 < n -> 0 < neig -> neig <= n ->
  domap fuel f n t neig vectors conv = iter fuel (map_step f) n t neig vectors conv.
Proof using Type. clear NC eigE.
  intros H4 H0 H1. unfold do_eigs. replace (n <? neig) with false by lia. replace (neig =? 0) with false by lia. cbn [orb negb assert_ bind]. replace (n <=? 4) with false by lia. reflexivity.
Qed.

End Full.

Section MapMatrix.
Context {E C : Type} (N : numops E) (junk : nat -> E) (to_c : E -> C) (junkc : nat -> C).
Notation zero := (nzero N).
Lemma map_matrix_ok f n g : 0 < n -> operator_is zero f n g -> local_op n g ->
  exists M, (wf M /\ dims M = [n; n] /\ forall i k, i < n -> k < n -> elt M [i; k] = Some (to_c (g (fun j => if j =? k then none_ N else zero) i))) /\
    exists F, forall fuel, F <= fuel -> map_matrix N junk to_c junkc fuel f n = Ok M.
Proof.
  intros Hn HO HLo. unfold map_matrix.
  destruct (for_fuel (fun m (M : tensor C) => wf M /\ dims M = [n; n] /\ forall i k, i < n -> k < m -> elt M [i; k] = Some (to_c (g (fun j => if j =? k then none_ N else zero) i))) n
    (fun fuel i M => v <- zeros N junk [n] ;; v <- set1 v (Z.of_nat i) (none_ N) ;; y <- f v ;; assign_tensor fuel M [SFull; SSingle (Z.of_nat i)] (to_complex to_c y))
    (new_tensor junkc [n; n])) as (M & HM & F & HF).
  - split; [apply new_tensor_wf|]. split; [reflexivity|]. intros; lia.
  - intros c M Hc (WM & DM & HM).
    assert (Z0 : zeros N junk [n] = Ok (mkT [n] (repeat zero n))).
    { unfold zeros. rewrite fill_ok. cbn [new_tensor dims data]. rewrite length_alloc. rewrite total_size_nelem, nelem_1. reflexivity. }
    assert (W0 : wf (mkT [n] (repeat zero n))) by (unfold wf; cbn [data dims]; rewrite repeat_length, nelem_1; reflexivity).
    destruct (set1_vec (mkT [n] (repeat zero n)) n c (none_ N) W0 eq_refl Hc) as (v & Ev & Wv & Dv & V1 & V2).
    destruct (HO v Wv Dv) as (y & Ey & Wy & Dy & Hy).
    assert (Ly : List.length (data y) = n) by (rewrite Wy, Dy, nelem_1; reflexivity).
    destruct (to_complex_wf to_c y Wy) as [Wty Dty]. rewrite Dy in Dty.
    destruct (patch_mat M n n SFull (SSingle (Z.of_nat c)) (seq 0 n) [c] (to_complex to_c y) WM DM Hn Hn (sel_full n) (sel_single n c Hc)) as (M' & (WM' & DM' & P1 & P2) & F & HF); auto.
    { apply seq_NoDup. } { repeat constructor. intros []. } { rewrite Dty, nelem_1, seq_length. cbn. lia. }
    exists M'. split.
    + split; [auto|]. split; [auto|]. intros i k Hi Hk. destruct (Nat.eq_dec k c) as [->|Hkc].
      * rewrite (P1 i 0 i c) by (auto; apply nth_error_seq0; auto). rewrite Nat.mul_0_r, Nat.add_0_r. cbn [to_complex data]. rewrite nth_error_map.
        rewrite (nth_error_nth' (data y) zero) by lia. cbn [option_map]. do 2 f_equal. rewrite Hy by auto. apply HLo; [|auto]. intros j Hj.
        destruct (Nat.eqb_spec j c) as [->|Hjc]; [apply (nth_error_nth _ _ _ V1)|].
        erewrite nth_error_nth; [reflexivity|]. rewrite V2 by auto. cbn [data]. apply nth_error_repeat. auto.
      * rewrite P2; [apply HM; lia|]. intros [_ [H|[]]]. auto.
    + exists F. intros fuel Hf. rewrite Z0. cbn [bind]. rewrite Ev. cbn [bind]. rewrite Ey. cbn [bind]. apply HF. auto.
  - exists M. split; [exact HM|]. exists F. exact HF.
Qed.
End MapMatrix.

Lemma sparse_operator {E} (N : numops E) (L : numlaws N) jd junk (s : sparse E) n : wf_sparse s -> srows s = n -> scols s = n ->
  operator_is (nzero N) (mmult_sp_t N jd junk s) n (app N n (S_Sparse.entry (nzero N) s)).
Proof.
  intros W Hr Hc t Wt Dt. destruct (L_Sparse7.mmult_sp_t_wf N L jd junk s t []) as (u & Eu & Wu & Du & Hu); auto; [rewrite Hc; auto|].
  exists u. split; [auto|]. split; [auto|]. split; [congruence|]. intros i Hi. rewrite Hr in Du. specialize (Hu i [] ltac:(lia) ltac:(constructor)).
  rewrite <- (val_vec N u n) by auto. unfold val at 1. rewrite Hu, Hc. unfold S_Cgs.app. apply sum_ext. intros k Hk. rewrite (val_vec N t n) by auto. reflexivity.
Qed.

Section Protocol.
Context {E S T : Type} (rp : bool) (default_tol : T) (aupd : problem T -> io E S -> io E S) (junk : nat -> E) (junk_state : S).
Definition proto (o : @object E S T) : Prop :=
  (ob_status o = Initialized -> io_ido (ob_io o) = 0%Z) /\ (ob_status o = Running -> expected aupd (ob_problem o) (ob_io o)).

Lemma update_proto o o' : ob_status o <> Uninitialized -> proto o -> update aupd o = Ok o' ->
  ob_status o' <> Uninitialized /\ proto o' /\
  ((ob_status o = Initialized \/ ob_status o = Running) /\ expected aupd (ob_problem o) (ob_io o) /\ ob_io o' = aupd (ob_problem o) (ob_io o) /\
     (ob_status o' = Running <-> asks (ob_io o')) /\ (ob_status o' = Finished <-> io_ido (ob_io o') = 99%Z /\ io_info (ob_io o') = 0%Z)
   \/ ~ (ob_status o = Initialized \/ ob_status o = Running) /\ ob_io o' = ob_io o /\ ob_status o' = Error).
Proof.
  destruct o as [st p s]. intros HU [P1 P2] H. unfold update in H. cbn [ob_status ob_problem ob_io] in *.
  assert (HE : st = Initialized \/ st = Running -> expected aupd p s) by (intros [->| ->]; [apply expected_first|]; auto).
  destruct (status_lt st Initialized) eqn:L1; [destruct st; discriminate || congruence|].
  destruct (status_lt Running st) eqn:L2.
  - injection H as <-. unfold proto. cbn [ob_status ob_problem ob_io].
    split; [discriminate|]. split; [split; discriminate|]. right. split; [|auto]. intros [->| ->]; discriminate.
  - assert (Hst : st = Initialized \/ st = Running) by (destruct st; try discriminate; auto). specialize (HE Hst).
    set (r := aupd p s) in *. unfold asks.
    assert (HR : forall st', Ok (mkObj st' p r) = Ok o' -> ob_io o' = r /\ ob_status o' = st' /\ ob_problem o' = p) by (intros st' He; injection He as <-; auto).
    destruct (Z.eqb_spec (io_ido r) 99) as [E99|E99].
    + destruct (Z.eqb_spec (io_info r) 1) as [I1|I1]; [|destruct (Z.ltb_spec 0 (io_info r)) as [I2|I2]; [|destruct (Z.ltb_spec (io_info r) 0) as [I3|I3]; [discriminate|]]];
        cbn [bind] in H; destruct (HR _ H) as (H1 & H2 & H3); unfold proto; rewrite H1, H2, H3; (split; [discriminate|]); (split; [split; discriminate|]); left;
        repeat (split; [solve [auto]|]); (split; [split; [discriminate|lia]|split; [solve [discriminate|intros; lia]|solve [intros; exfalso; lia|auto]]]).
    + destruct (Z.eqb_spec (io_ido r) 1) as [J1|J1]; [|destruct (Z.eqb_spec (io_ido r) (-1)) as [J2|J2]]; cbn [negb andb bind] in H; destruct (HR _ H) as (H1 & H2 & H3); unfold proto; rewrite H1, H2, H3; (split; [discriminate|]).
      3: { split; [split; discriminate|]. left. repeat (split; [solve [auto]|]). split; [split; [discriminate|tauto]|split; [discriminate|lia]]. }
      1,2: split; [split; [discriminate|intros _; replace r with (mkIO (io_state r) (io_ido r) (io_info r) (io_resid r) (io_workd r) (io_x r) (io_y r)) by (destruct r; reflexivity); apply (expected_next aupd p s); [auto|unfold asks; fold r; auto]]|];
        left; repeat (split; [solve [auto]|]); (split; [tauto|split; [discriminate|lia]]).
Qed.

Lemma expected_workd p s w : io_ido s <> 0%Z -> expected aupd p s -> expected aupd p (mkIO (io_state s) (io_ido s) (io_info s) (io_resid s) w (io_x s) (io_y s)).
Proof. intros H0 H. destruct H as [s H|s w' H Ha]; [contradiction|]. apply (expected_next aupd p s w); auto. Qed.

Lemma do_op_proto o c o' : (ob_status o = Running -> asks (ob_io o)) -> ob_status o <> Uninitialized -> proto o -> do_op aupd o c = Ok o' ->
  (ob_status o' = Running -> asks (ob_io o')) /\ ob_status o' <> Uninitialized /\ proto o'.
Proof.
  intros HA HU P H. destruct c; cbn [do_op] in H.
  - destruct (update_proto o o' HU P H) as (U' & P' & [(_ & _ & _ & Hr & _)|(_ & _ & He)]); split; [tauto|auto|rewrite He; discriminate|auto].
  - unfold set_start_vector in H. destruct (status_lt (ob_status o) Running) eqn:Ls; [|discriminate]. cbn [assert_ bind] in H.
    destruct (write_block _ _ _ _); [|discriminate..]. cbn [bind] in H. injection H as <-. unfold proto in *. cbn [ob_status ob_problem ob_io io_ido].
    destruct (ob_status o); try discriminate; try contradiction. repeat split; try discriminate. intros; apply P; auto.
  - unfold set_tolerance in H. destruct (status_lt (ob_status o) Running) eqn:Ls; [|discriminate]. cbn [assert_ bind] in H.
    injection H as <-. unfold proto in *. cbn [ob_status ob_problem ob_io io_ido].
    destruct (ob_status o); try discriminate; try contradiction. repeat split; try discriminate. intros; apply P; auto.
  - unfold set_maxiter in H. destruct (status_lt (ob_status o) Running) eqn:Ls; [|discriminate]. cbn [assert_ bind] in H.
    injection H as <-. unfold proto in *. cbn [ob_status ob_problem ob_io io_ido].
    destruct (ob_status o); try discriminate; try contradiction. repeat split; try discriminate. intros; apply P; auto.
  - unfold set_y, get_y_vector in H. destruct (ob_status o) eqn:Es; try discriminate. cbn [bind] in H.
    destruct (write_block _ _ _ _) as [w| | |]; [|discriminate..]. cbn [bind] in H. injection H as <-. unfold proto, with_workd in *. cbn [ob_status ob_problem ob_io io_ido]. rewrite Es.
    specialize (HA eq_refl). destruct P as [_ P]. split; [intros _; exact HA|]. split; [discriminate|]. split; [discriminate|]. intros _. apply expected_workd; [|auto].
    destruct HA as [HA|HA]; rewrite HA; discriminate.
Qed.

Lemma do_ops_proto cs : forall o o', (ob_status o = Running -> asks (ob_io o)) -> ob_status o <> Uninitialized -> proto o -> do_ops aupd o cs = Ok o' ->
  (ob_status o' = Running -> asks (ob_io o')) /\ ob_status o' <> Uninitialized /\ proto o'.
Proof.
  induction cs as [|c cs IH]; intros o o' HA HU P H; cbn [do_ops] in H; [injection H as <-; auto|].
  destruct (do_op aupd o c) as [o1| | |] eqn:E1; [|discriminate..]. cbn [bind] in H. destruct (do_op_proto o c o1 HA HU P E1) as (A1 & U1 & P1). eauto.
Qed.

Lemma new_proto n t nev o : arpack_new rp default_tol junk junk_state n t nev = Ok o -> ob_status o = Initialized /\ proto o.
Proof.
  unfold arpack_new. intros H. repeat match type of H with context [assert_ ?b] => destruct b; [cbn [assert_ bind] in H|discriminate] end.
  destruct (rdZ (whichs rp) t); [|discriminate..]. cbn [bind] in H. destruct (negb _); [|discriminate]. cbn [assert_ bind] in H. injection H as <-. unfold proto. cbn. repeat split; discriminate.
Qed.
End Protocol.

Lemma write_block_short {E} (l src : list E) y n : y + n <= List.length l -> List.length src < n -> write_block l (Z.of_nat y) n src = UB.
Proof.
  intros Hl Hs. unfold write_block.
  assert (H : forall m, m <= List.length src -> exists l', for_ m (fun i l => x <- rd src i ;; wrZ l (Z.of_nat y + Z.of_nat i)%Z x) l = Ok l' /\ List.length l' = List.length l).
  { induction m as [|m IH]; intros Hm; [exists l; split; reflexivity|]. destruct (IH ltac:(lia)) as (l' & E' & L'). rewrite for_S, E'. cbn [bind].
    destruct (nth_error_lt src m ltac:(lia)) as (x & Ex). unfold rd. rewrite Ex. cbn [bind]. rewrite <- Nat2Z.inj_add, wrZ_nat. unfold wr.
    replace (y + m <? List.length l') with true by lia. eexists. split; [reflexivity|]. rewrite length_upd. auto. }
  destruct (H (List.length src) ltac:(lia)) as (l' & E' & L'). replace n with (List.length src + (n - List.length src)) by lia. rewrite for_app, E'. cbn [bind].
  destruct (n - List.length src) as [|k] eqn:Ek; [lia|]. clear. induction k as [|k IH]; [rewrite for_S; cbn [for_ bind]|rewrite for_S, IH; reflexivity].
  unfold rd. rewrite (proj2 (nth_error_None src _)) by lia. reflexivity.
Qed.

Lemma vector_ext {E} (N : numops E) (a : nat -> nat -> E) n w x y : (forall i, i < n -> x i = y i) -> right_vector N a n w x -> right_vector N a n w y.
Proof.
  intros H ((k & Hk & H0) & Hx). split; [exists k; split; [auto|]; rewrite <- H by auto; auto|]. intros i Hi. rewrite <- H, <- Hx by auto.
  apply sum_ext. intros j Hj. rewrite H by auto. reflexivity.
Qed.

Section Good.
Context {E S T : Type} (N : numops E) (rp : bool) (default_tol : T).
Context (aupd : problem T -> io E S -> io E S).
Context (eupd : problem T -> bool -> io E S -> list E -> list E -> Z * list E * list E).
Context (junk : nat -> E) (junk_state : S).

Lemma good_found wanted n t code nev vectors conv step a : arpack_code rp t = Some code -> 0 < nev -> nev < n ->
  answers N (init_problem rp default_tol n code nev) (app N n a) step ->
  arpack_good N aupd eupd wanted (init_problem rp default_tol n code nev) a ->
  exists F, forall fuel, F <= fuel ->
    found N (wanted code) a n nev vectors conv
      (eigs_iterative N rp default_tol aupd eupd junk junk_state fuel step n (eigtype_int t) nev vectors conv).
Proof.
  intros Hc H0 H1 HA G.
  destruct (G (init_io junk junk_state n vectors)) as (s' & D & Hi & Hp & HE).
  { unfold init_io. destruct vectors as [v|]; [destruct (n <=? List.length (data v))|]; reflexivity. }
  { unfold init_io. cbn [init_problem p_n]. destruct vectors as [v|]; [destruct (n <=? List.length (data v))|]; cbn [io_workd]; rewrite length_alloc; lia. }
  destruct (iterative_ok N rp default_tol aupd eupd junk junk_state n t code nev vectors conv step _ s' Hc H0 H1 HA D) as (F & HF).
  exists F. intros fuel Hf. destruct (HF fuel Hf) as (R1 & R2 & R3). cbn [init_problem p_n p_nev p_which] in *.
  destruct (Z.eq_dec (io_info s') 0) as [Z0|Z0]; [left|right; apply R2; right; lia].
  destruct (R3 Hi Z0) as (room & roomz & Lr & Lz & R4).
  destruct (HE Z0 (match vectors with Some _ => true | None => false end) room roomz Lr Lz) as (d & z & Ee & Ld & Lz' & Hw & Hk).
  destruct (R4 _ _ _ Ee) as [_ R5]. specialize (R5 eq_refl Ld).
  exists (mkT [nev] (firstn nev d)), (if match vectors with Some _ => true | None => false end then Some (mkT [n; nev] z) else None). split; [exact R5|].
  assert (Lf : List.length (firstn nev d) = nev) by (rewrite firstn_length; lia).
  assert (Wu : wf (mkT [nev] (firstn nev d))) by (unfold wf; cbn [data dims]; rewrite Lf, nelem_1; reflexivity).
  assert (Ev : forall k, k < nev -> val N (mkT [nev] (firstn nev d)) [k] = nth k d (nzero N)).
  { intros k Hk'. rewrite (val_vec N _ nev) by auto. cbn [data]. rewrite <- (firstn_skipn nev d) at 2. rewrite app_nth1 by lia. reflexivity. }
  split; [exact Wu|]. split; [reflexivity|]. split; [exact Hw|]. split; [intros k Hk'; rewrite Ev by auto; apply Hk; auto|].
  destruct vectors as [v|]; [|reflexivity]. split; [discriminate|].
  assert (Wz : wf (mkT [n; nev] z)) by (unfold wf; cbn [data dims]; rewrite Lz' by auto; cbn; lia).
  split; [exact Wz|]. split; [reflexivity|]. intros k Hk'. rewrite Ev by auto. refine (vector_ext N a n _ _ _ _ (proj2 (Hk k Hk') eq_refl)). intros i Hi'.
  unfold val. rewrite (mat_nth (mkT [n; nev] z) n nev i k (nzero N)) by auto. reflexivity.
Qed.
End Good.

Section Small.
Context {E R C S T : Type} (N : numops E) (NC : numops C) (rp : bool) (default_tol : T).
Context (aupd : problem T -> io E S -> io E S).
Context (eupd : problem T -> bool -> io E S -> list E -> list E -> Z * list E * list E).
Context (junk : nat -> E) (junk_state : S).
Context (proj : C -> E) (to_c : E -> C) (re im modulus : C -> R) (neg : R -> R) (lt : R -> R -> bool).
Context (Hlt : strict_total lt) (Hneg : forall x y, lt (neg x) (neg y) = lt y x).
Context (sorter : (nat -> nat -> bool) -> list nat -> list nat) (Hs : @is_std_sort nat sorter) (junkc : nat -> C).

Lemma map_small_ok zgeev f n g t neig vectors conv : operator_is (nzero N) f n g -> local_op n g -> 0 < neig -> neig <= n -> n <= 4 ->
  let a := fun i k => to_c (g (fun j => if j =? k then none_ N else nzero N) i) in
  let want := match vectors with Some _ => true | None => false end in
  (forall d, (forall i k, i < n -> k < n -> nth_error d (i + n * k) = Some (a i k)) -> zgeev_good NC zgeev want false n d) ->
  exists (w : nat -> C) sel u uv,
    (forall k, k < n -> eigenvalue NC a n (w k)) /\
    first_ones (eig_before re im modulus lt t) n neig w sel /\
    wf u /\ dims u = [neig] /\ (forall x k, nth_error sel x = Some k -> elt u [x] = Some (proj (w k))) /\
    match uv with
    | Some uv => want = true /\ wf uv /\ dims uv = [n; neig] /\
        forall x k, nth_error sel x = Some k -> exists v, left_vector NC a n (w k) v /\ forall i, i < n -> elt uv [i; x] = Some (proj (v i))
    | None => want = false
    end /\
    exists F, forall fuel, F <= fuel ->
      do_eigs N rp default_tol aupd eupd junk junk_state proj to_c re im modulus neg lt sorter junkc (eig_z zgeev) fuel f n (eigtype_int t) neig vectors conv
      = Ok (u, uv, if conv then Some true else None).
Proof.
  intros HO HLo H0 H1 H4 a want G.
  destruct (map_matrix_ok N junk to_c junkc f n g ltac:(lia) HO HLo) as (M & (WM & DM & HM) & F1 & HF1).
  assert (Ev : forall i k, i < n -> k < n -> val NC M [i; k] = a i k) by (intros i k Hi Hk; unfold val; rewrite HM by auto; reflexivity).
  destruct (eig_z_ok NC zgeev M n false want WM DM ltac:(lia)) as (w & vR & vL & E1 & Ww & Dw & Hv & _ & HL).
  { apply G. intros i k Hi Hk. unfold a. rewrite <- HM by auto. symmetry. apply (mat_elt M n n); auto. }
  destruct (eigs_small_ok NC (fun x => x) false re im modulus neg lt Hlt Hneg sorter Hs junkc (fun _ _ _ => UB) (eig_z zgeev) M n t neig want w vR vL) as (sel & FO & u & uv & (Wu & Du & Hu & Huv) & F2 & HF2); auto.
  { destruct vL as [vL|]; cbn in HL |- *; [|auto]. destruct HL as (? & ? & ? & _). auto. }
  exists (fun k => val NC w [k]), sel, (mkT (dims u) (map proj (data u))), (option_map (fun z => mkT (dims z) (map proj (data z))) uv).
  pose proof FO as (_ & _ & FO3 & _).
  assert (Wm : forall t : tensor C, wf t -> wf (mkT (dims t) (map proj (data t)))) by (intros q Wq; unfold wf in *; cbn [data dims]; rewrite map_length; exact Wq).
  assert (Em : forall (q : tensor C) ix x, elt q ix = Some x -> elt (mkT (dims q) (map proj (data q))) ix = Some (proj x)).
  { intros q ix x Hq. unfold elt in *. cbn [dims data]. destruct (validb _ _); [|discriminate]. rewrite nth_error_map, Hq. reflexivity. }
  split. { intros k Hk. destruct (Hv k Hk) as (x & Hx0 & Hx). exists x. split; [exact Hx0|]. intros i Hi. rewrite <- Hx by auto. apply sum_ext. intros j Hj. rewrite Ev by auto. reflexivity. }
  split; [exact FO|]. split; [auto|]. split; [auto|]. split; [intros x k Hx; apply Em; auto|]. split.
  - destruct uv as [uv|], vL as [vL|]; cbn in HL; try contradiction; cbn [option_map dims]; [|auto].
    destruct HL as (Hw & WL & DL & HL), Huv as (Wv & Dv & Hv'). split; [auto|]. split; [auto|]. split; [auto|]. intros x k Hx.
    specialize (FO3 k (nth_error_In _ _ Hx)). exists (fun i => val NC vL [i; k]). destruct (HL k FO3) as (Hy0 & Hy). split.
    + split; [exact Hy0|]. intros j Hj. rewrite <- Hy by auto. apply sum_ext. intros i Hi. rewrite Ev by auto. reflexivity.
    + intros i Hi. apply Em. apply Hv'; auto.
  - exists (F1 + F2). intros fuel Hf. unfold do_eigs. replace (n <? neig) with false by lia. replace (neig =? 0) with false by lia. cbn [orb negb assert_ bind].
    replace (n <=? 4) with true by lia. rewrite HF1 by lia. cbn [bind].
    replace (eigtype_of (eigtype_int t)) with (Some t) by (destruct t; reflexivity). fold want. rewrite HF2 by lia. reflexivity.
Qed.
End Small.
