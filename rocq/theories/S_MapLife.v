(* Specification vocabulary for C102. *)
From Verif Require Import Base M_RefCount S_RefCount M_MapLife.

Section Spec.
Context {A : Type}.

(* the vectors inside of function objects and operators *)
Definition inside (o : option (list nat)) : list nat := match o with Some vs => vs | None => [] end.
Definition within (o : option (operator * bool)) : list nat := match o with Some (MMatrix vs, _) => vs | _ => [] end.
Definition owned (w : world A) : list nat := concat (map inside (funs w)) ++ concat (map within (maps w)).

(* the vectors that an operation names *)
Definition names (o : op A) : list nat :=
  match o with
  | ONew _ | ODefault | OWrap _ _ | OPoke _ _ _ => []
  | OCopy h | OSize h | OResize h _ | ODestroy h | OWrite h _ _ | ORead h _ => [h]
  | OAssign h g => [h; g]
  end.

(* a function object that has not ended *)
Definition exists_fun (w : world A) (f : nat) : Prop := exists vs, nth_error (funs w) f = Some (Some vs).
Definition usable (w : world A) (src : source) : Prop :=
  match src with FromMatrix hs => Forall (alive (mem w)) hs | FromFunction f => exists_fun w f end.

(* The operations of a correct program: it uses its own vectors, that are alive,
   function objects that have not ended, and operators that it keeps; those that
   refer to a function object are called only before it ends. *)
Definition proper (w : world A) (o : uop A) : Prop :=
  match o with
  | UVec o => legal (mem w) o /\ Forall (fun h => ~ In h (owned w)) (names o)
  | UFun hs => Forall (alive (mem w)) hs
  | UDrop f => exists_fun w f
  | USolve _ _ src | UKeep src => usable w src
  | UApply m => exists p, nth_error (maps w) m = Some (Some (p, true)) /\ match p with MMatrix _ => True | MFunction f => exists_fun w f end
  | URelease m => exists p, nth_error (maps w) m = Some (Some (p, true))
  end.

(* a program begins with the memory of the caller *)
Definition start (bufs : list (list A)) : world A := mkW (init bufs) [] [].
(* the states after a history of proper operations, that satisfy P *)
Inductive history (P : uop A -> Prop) (w0 : world A) : world A -> Prop :=
| history_start : history P w0 w0
| history_step w o w' xs : history P w0 w -> proper w o -> P o -> ustep w o = Ok (w', xs) -> history P w0 w'.

(* nothing is left of the program's: its vectors, function objects and operators *)
Definition all_ended (w : world A) : Prop :=
  (forall h, alive (mem w) h -> In h (owned w)) /\ Forall (fun f => f = None) (funs w) /\ (forall m p, nth_error (maps w) m <> Some (Some (p, true))).
(* all memory of vectors is given back *)
Definition all_free (w : world A) : Prop := Forall (fun b => b = None) (heap (mem w)).

(* the elements that a vector holds *)
Definition holds (s : state A) (h : nat) (l : list A) : Prop := exists b, nth_error (seen s) h = Some (Some b) /\ contents s b = Ok l.
End Spec.
Definition any {A} (o : uop A) : Prop := True.
Definition no_eigs {A} (o : uop A) : Prop := match o with USolve _ (Eigs _ _ _ _) _ => False | _ => True end.
