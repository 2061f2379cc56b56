(* Specification vocabulary for C01-C04. *)
From Verif Require Import Base M_RefCount.

(* ---- the value-semantics specification: every variable owns a list ---- *)
Section SpecSem.
Context {A : Type}.

Definition sstate := list (option (list A)).

Definition svar (s : sstate) (h : nat) : option (list A) :=
  match nth_error s h with Some (Some l) => Some l | _ => None end.

(* None: the program uses a destroyed variable, an index out of range, or
   foreign memory (not covered by this specification) *)
Definition sstep (s : sstate) (o : op A) : option (sstate * obs A) :=
  match o with
  | ONew l => Some (s ++ [Some l], ONone)
  | ODefault => Some (s ++ [Some []], ONone)
  | OCopy h => match svar s h with Some l => Some (s ++ [Some l], ONone) | None => None end
  | OAssign h g =>
    match svar s h, svar s g with
    | Some _, Some l => Some (upd s h (Some l), ONone)
    | _, _ => None
    end
  | OWrite h i v =>
    match svar s h with
    | Some l => if i <? length l then Some (upd s h (Some (upd l i v)), ONone) else None
    | None => None
    end
  | ORead h i =>
    match svar s h with
    | Some l => match nth_error l i with Some v => Some (s, OVal v) | None => None end
    | None => None
    end
  | OSize h => match svar s h with Some l => Some (s, ONum (length l)) | None => None end
  | OResize h l => match svar s h with Some _ => Some (upd s h (Some l), ONone) | None => None end
  | ODestroy h => match svar s h with Some _ => Some (upd s h None, ONone) | None => None end
  | OWrap _ _ => None
  | OPoke _ _ _ => None
  end.

Fixpoint srun (s : sstate) (ops : list (op A)) : option (sstate * list (obs A)) :=
  match ops with
  | [] => Some (s, [])
  | o :: rest =>
    match sstep s o with
    | None => None
    | Some (s1, x) =>
      match srun s1 rest with None => None | Some (s2, xs) => Some (s2, x :: xs) end
    end
  end.
End SpecSem.
Arguments sstate : clear implicits.

(* number of live variables referring to address a *)
Definition odec : forall x y : option nat, {x = y} + {x <> y}.
Proof. decide equality; apply Nat.eq_dec. Defined.

Definition nrefs (vs : list (option nat)) (a : nat) : Z :=
  Z.of_nat (count_occ odec vs (Some a)).


Section Vocabulary.
Context {A : Type}.
Implicit Types s : state A.

(* ---- what each variable sees ---- *)
Definition look s (o : option nat) : option (buffer A) :=
  match o with
  | Some a => match nth_error (heap s) a with Some (Some p) => Some (pbuf p) | _ => None end
  | None => None
  end.

Definition seen s : list (option (buffer A)) := map (look s) (vars s).

Definition bsize (b : buffer A) : nat := match b with Own l => length l | Ext _ n => n end.

(* which operations a program may perform in a given state: variables it uses
   are alive, indices are in range, wrapped buffers are long enough *)
Definition alive s h := exists b, nth_error (seen s) h = Some (Some b).
Definition legal s (o : op A) : Prop :=
  match o with
  | ONew _ | ODefault => True
  | OWrap f n => exists l, nth_error (ext s) f = Some (Some l) /\ n <= length l
  | OCopy h | OSize h | OResize h _ | ODestroy h => alive s h
  | OAssign h g => alive s h /\ alive s g
  | OWrite h i _ | ORead h i => exists b, nth_error (seen s) h = Some (Some b) /\ i < bsize b
  | OPoke f i _ => exists l, nth_error (ext s) f = Some (Some l) /\ i < length l
  end.

(* histories made of legal operations *)
Inductive reach (s0 : state A) : list (op A) -> state A -> Prop :=
| reach_nil : reach s0 [] s0
| reach_step ops s o s' x : reach s0 ops s -> legal s o -> step s o = Ok (s', x) ->
    reach s0 (ops ++ [o]) s'.

End Vocabulary.

(* legal use of shared_ptr variables: only live ones are copied or destroyed *)
Fixpoint sp_legal (s : spstate) (ops : list spop) : Prop :=
  match ops with
  | [] => True
  | o :: rest =>
    match o with
    | SPNew => True
    | SPCopy h | SPDestroy h => exists a, nth_error (spvars s) h = Some (Some a)
    end /\ (forall s', spstep s o = Ok s' -> sp_legal s' rest)
  end.
