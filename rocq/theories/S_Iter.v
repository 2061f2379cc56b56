(* Specification of kept iterators over the value semantics of S_RefCount: a pointer
   is a variable and a permission to write.  It is forgotten when the variable is
   assigned, resized or destroyed; a pointer for writing also when the variable is
   copied; a pointer for reading also when the variable is written or asked for a
   pointer for writing. *)
From Verif Require Import Base M_RefCount S_RefCount M_Iter.

Section SIter.
Context {A : Type}.

(* (true, h): for writing, (false, h): for reading, None: forgotten *)
Definition kept := list (option (bool * nat)).
Definition forgets (o : op A) (p : bool * nat) : bool :=
  let (w, h) := p in
  match o with
  | OCopy g => w && (g =? h)
  | OAssign g f => (g =? h) || (w && (f =? h))
  | OWrite g _ _ => negb w && (g =? h)
  | OResize g _ => g =? h
  | ODestroy g => g =? h
  | _ => false
  end.
Definition forget (f : bool * nat -> bool) (ks : kept) : kept :=
  map (fun k => match k with Some p => if f p then None else Some p | None => None end) ks.

Definition isstep (s : sstate A * kept) (o : iop A) : option ((sstate A * kept) * obs A) :=
  let (t, ks) := s in
  match o with
  | IOp o => match sstep t o with Some (t', x) => Some ((t', forget (forgets o) ks), x) | None => None end
  | IBegin h => match svar t h with
                | Some _ => Some ((t, forget (fun p => negb (fst p) && (snd p =? h)) ks ++ [Some (true, h)]), ONone)
                | None => None end
  | ICBegin h => match svar t h with Some _ => Some ((t, ks ++ [Some (false, h)]), ONone) | None => None end
  | ILoad k i => match nth_error ks k with
                 | Some (Some (_, h)) => match sstep t (ORead h i) with Some (t', x) => Some ((t', ks), x) | None => None end
                 | _ => None end
  | IStore k i v => match nth_error ks k with
                    | Some (Some (true, h)) => match sstep t (OWrite h i v) with Some (t', x) => Some ((t', ks), x) | None => None end
                    | _ => None end
  end.
Fixpoint isrun (s : sstate A * kept) (ops : list (iop A)) : option ((sstate A * kept) * list (obs A)) :=
  match ops with
  | [] => Some (s, [])
  | o :: rest =>
    match isstep s o with
    | None => None
    | Some (s1, x) => match isrun s1 rest with None => None | Some (s2, xs) => Some (s2, x :: xs) end
    end
  end.
End SIter.
