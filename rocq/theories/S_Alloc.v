(* Specification vocabulary for C85: vectors when memory runs out. *)
From Verif Require Import Base M_RefCount S_RefCount M_Alloc.

Section SpecAlloc.
Context {A : Type}.

(* operations that declare a variable *)
Definition declares (o : op A) : bool :=
  match o with ONew _ | ODefault | OWrap _ _ | OCopy _ => true | _ => false end.

Definition is_resize (o : op A) : bool :=
  match o with OResize _ _ => true | _ => false end.

(* operations of the value semantics of S_RefCount *)
Definition is_foreign (o : op A) : bool :=
  match o with OWrap _ _ | OPoke _ _ _ => true | _ => false end.

(* The value semantics when some operations threw: an operation that threw did
   nothing at all (its variable, if it declares one, does not exist), every
   other one did what it does with plenty of memory and returned the same. *)
Fixpoint explains (t : sstate A) (ops : list (op A)) (rs : list (res A)) (t_end : sstate A) : Prop :=
  match ops, rs with
  | [], [] => t = t_end
  | o :: ops', Done x :: rs' => exists t', sstep t o = Some (t', x) /\ explains t' ops' rs' t_end
  | o :: ops', Threw :: rs' => explains (if declares o then t ++ [None] else t) ops' rs' t_end
  | _, _ => False
  end.

(* Histories of legal operations, any of which may run out of memory, except
   that no resize does *)
Inductive xreach (of : bool) (x0 : xstate A) : list (op A) -> list (res A) -> xstate A -> Prop :=
| xreach_nil : xreach of x0 [] [] x0
| xreach_step ops rs x o m x' r :
    xreach of x0 ops rs x -> legal (st x) o -> xstep of m x o = Ok (x', r) ->
    ~ (is_resize o = true /\ r = Threw) ->
    xreach of x0 (ops ++ [o]) (rs ++ [r]) x'.

End SpecAlloc.
