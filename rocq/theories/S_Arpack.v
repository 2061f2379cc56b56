(* Vocabulary of the properties of the iterative eigenvalue solver: what the
   ARPACK library is asked, and what an honest dialogue with it is. *)
From Verif Require Import Base Spec S_Fold S_Reduce S_Cgs S_Eig M_Eig.
From Coq Require Import String List.
Import ListNotations.
Local Open Scope nat_scope.

(* The parameters of a run: order of the matrix, code of the eigenvalues wanted,
   their number, tolerance, vectors in the basis, limit of iterations, length of
   the work array. *)
Record problem {T : Type} := mkProblem {
  p_n : nat; p_which : string; p_nev : nat; p_tol : T; p_ncv : nat; p_maxit : nat; p_lworkl : nat }.
Arguments problem : clear implicits.
Arguments mkProblem {T}.

(* What goes in and out of a call to xxAUPD.  [io_state] holds the arrays and
   parameters that only the library reads (V, workl, rwork, iparam); the
   positions of X and Y in workd count from one. *)
Record io {E S : Type} := mkIO {
  io_state : S; io_ido : Z; io_info : Z; io_resid : list E; io_workd : list E; io_x : Z; io_y : Z }.
Arguments io : clear implicits.
Arguments mkIO {E S}.

Section Dialogue.
Context {E S : Type} (zero : E) (aupd : io E S -> io E S) (n : nat).
(* the operator of which eigenvalues are sought *)
Context (f : (nat -> E) -> nat -> E).

Definition asks (s : io E S) : Prop := io_ido s = 1%Z \/ io_ido s = (-1)%Z.
(* X and Y are two blocks of n elements of workd, without common elements *)
Definition blocks_ok (s : io E S) (x y : nat) : Prop :=
  io_x s = (Z.of_nat x + 1)%Z /\ io_y s = (Z.of_nat y + 1)%Z /\
  x + n <= length (io_workd s) /\ y + n <= length (io_workd s) /\ (x + n <= y \/ y + n <= x).
(* s' is s with f(X) put in Y, and no other change *)
Definition answered (s s' : io E S) : Prop :=
  exists x y w, blocks_ok s x y /\ length w = length (io_workd s) /\
    (forall i, i < n -> nth_error w (y + i) = Some (f (fun j => nth (x + j) (io_workd s) zero) i)) /\
    (forall k, (k < y \/ y + n <= k) -> nth_error w k = nth_error (io_workd s) k) /\
    s' = mkIO (io_state s) (io_ido s) (io_info s) (io_resid s) w (io_x s) (io_y s).

(* the library, called with s, says s' in the end, after asking for as many
   products as it needed and having been given them *)
Inductive dialogue (s : io E S) : io E S -> Prop :=
| dialogue_end : ~ asks (aupd s) -> dialogue s (aupd s)
| dialogue_ask s1 s' : asks (aupd s) -> answered (aupd s) s1 -> dialogue s1 s' -> dialogue s s'.
End Dialogue.

(* the code by which ARPACK knows the eigenvalues wanted; None: there is none *)
Definition arpack_code (real_problem : bool) (t : eigtype) : option string :=
  match t, real_problem with
  | LargestMagnitude, _ => Some "LM"
  | SmallestMagnitude, _ => Some "SM"
  | LargestReal, true => Some "LA"
  | SmallestReal, true => Some "SA"
  | LargestReal, false => Some "LR"
  | SmallestReal, false => Some "SR"
  | LargestImaginary, false => Some "LI"
  | SmallestImaginary, false => Some "SI"
  | _, _ => None
  end%string.
(* the integer that the caller writes *)
Definition eigtype_int (t : eigtype) : Z :=
  match t with
  | LargestMagnitude => 0 | SmallestMagnitude => 1 | LargestReal => 2 | SmallestReal => 3 | LargestImaginary => 4 | SmallestImaginary => 5
  end%Z.

(* What ARPACK documents of these parameters: 0 < nev, nev + 1 <= ncv <= n, a
   known code, iterations, and a work array that is long enough. *)
Definition legal {T} (real_problem : bool) (p : problem T) : Prop :=
  0 < p_nev p /\ p_nev p + 1 <= p_ncv p /\ p_ncv p <= p_n p /\ 0 < p_maxit p /\
  (if real_problem then p_ncv p * p_ncv p + 8 * p_ncv p <= p_lworkl p /\ In (p_which p) ["LM"; "SM"; "LA"; "SA"; "BE"]%string
   else 3 * p_ncv p * p_ncv p + 5 * p_ncv p <= p_lworkl p /\ In (p_which p) ["LM"; "SM"; "LR"; "SR"; "LI"; "SI"]%string).

(* The first call: ido = 0, and info tells whether resid holds a vector to start
   with. *)
Definition first_call {E S} (n : nat) (guess : option (tensor E)) (s : io E S) : Prop :=
  io_ido s = 0%Z /\ length (io_workd s) = 3 * n /\
  match guess with
  | Some g => if n <=? length (data g) then io_info s = 1%Z /\ io_resid s = firstn n (data g) else io_info s = 0%Z
  | None => io_info s = 0%Z
  end.

(* f, on vectors of n elements, is the operator g *)
Definition operator_is {E} (zero : E) (f : tensor E -> outcome (tensor E)) (n : nat) (g : (nat -> E) -> nat -> E) : Prop :=
  forall t, wf t -> dims t = [n] ->
    exists u, f t = Ok u /\ wf u /\ dims u = [n] /\ forall i, i < n -> nth i (data u) zero = g (fun j => nth j (data t) zero) i.
(* g looks at the n elements of its argument only *)
Definition local_op {E} (n : nat) (g : (nat -> E) -> nat -> E) : Prop :=
  forall u v, (forall j, j < n -> u j = v j) -> forall i, i < n -> g u i = g v i.

(* What eigs is to do when the library has said s' in the end.  [eupd] extracts
   the values and vectors.  [vectors]: null, or what it holds; [conv]: whether
   the caller asked if it converged; the result: the values, *vectors, *conv. *)
Definition arpack_returns {E S T} (zero : E) (eupd : problem T -> bool -> io E S -> list E -> list E -> Z * list E * list E)
  (p : problem T) (s' : io E S) (vectors : option (tensor E)) (conv : bool)
  (run : outcome (tensor E * option (tensor E) * option bool)) : Prop :=
  let n := p_n p in let nev := p_nev p in
  let want := match vectors with Some _ => true | None => false end in
  (io_ido s' = 99%Z -> (io_info s' < 0)%Z -> run = Abort) /\
  (io_ido s' <> 99%Z \/ (0 < io_info s')%Z ->
     run = if conv then Ok (mkT [nev] (repeat zero nev), vectors, Some false) else Abort) /\
  (io_ido s' = 99%Z -> io_info s' = 0%Z ->
     exists room roomz, length room = nev + 1 /\ length roomz = (if want then n * nev else 0) /\
     forall info d z, eupd p want s' room roomz = (info, d, z) ->
       (info <> 0%Z -> run = Abort) /\
       (info = 0%Z -> length d = nev + 1 ->
        run = Ok (mkT [nev] (firstn nev d), if want then Some (mkT [n; nev] z) else None, if conv then Some true else None))).

(* What ARPACK promises about the n by n matrix a, in exact arithmetic: the
   dialogue ends; when it ends well the values are eigenvalues, the vectors
   eigenvectors, and [wanted] holds of the values, whatever it is that the code
   stands for. *)
Definition arpack_good {E S T} (N : numops E) (aupd : problem T -> io E S -> io E S)
  (eupd : problem T -> bool -> io E S -> list E -> list E -> Z * list E * list E) (wanted : string -> list E -> Prop)
  (p : problem T) (a : nat -> nat -> E) : Prop :=
  let n := p_n p in let nev := p_nev p in
  forall s0, io_ido s0 = 0%Z -> length (io_workd s0) = 3 * n ->
  exists s', dialogue (nzero N) (aupd p) n (S_Cgs.app N n a) s0 s' /\ io_ido s' = 99%Z /\ (0 <= io_info s')%Z /\
    (io_info s' = 0%Z -> forall (want : bool) room roomz, length room = nev + 1 -> length roomz = (if want then n * nev else 0) ->
       exists d z, eupd p want s' room roomz = (0%Z, d, z) /\ length d = nev + 1 /\ (want = true -> length z = n * nev) /\
         wanted (p_which p) (firstn nev d) /\
         forall k, k < nev -> eigenvalue N a n (nth k d (nzero N)) /\
           (want = true -> right_vector N a n (nth k d (nzero N)) (fun i => nth (i + n * k) z (nzero N)))).

(* A call that the library expects: the first one; or one that answers what it
   asked, in which no more than workd has changed since it did. *)
Inductive expected {E S T} (aupd : problem T -> io E S -> io E S) (p : problem T) : io E S -> Prop :=
| expected_first s : io_ido s = 0%Z -> expected aupd p s
| expected_next s w : expected aupd p s -> asks (aupd p s) ->
    expected aupd p (let r := aupd p s in mkIO (io_state r) (io_ido r) (io_info r) (io_resid r) w (io_x r) (io_y r)).

(* eigs has found eigenvalues of a, and eigenvectors if there was room for them;
   or it says that it has not, or stops if it cannot say so *)
Definition found {E} (N : numops E) (wanted : list E -> Prop) (a : nat -> nat -> E) (n nev : nat) (vectors : option (tensor E)) (conv : bool)
  (run : outcome (tensor E * option (tensor E) * option bool)) : Prop :=
  (exists u uv, run = Ok (u, uv, if conv then Some true else None) /\ wf u /\ dims u = [nev] /\ wanted (data u) /\
     (forall k, k < nev -> eigenvalue N a n (val N u [k])) /\
     match uv with
     | Some z => vectors <> None /\ wf z /\ dims z = [n; nev] /\ forall k, k < nev -> right_vector N a n (val N u [k]) (fun i => val N z [i; k])
     | None => vectors = None
     end) \/
  run = if conv then Ok (mkT [nev] (repeat (nzero N) nev), vectors, Some false) else Abort.
