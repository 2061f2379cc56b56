(* Vocabulary for the Matlab reader of data sets: directories of SDF files. *)
From Verif Require Import Base Spec S_Sdf S_Matsdf.

(* What Matlab sees of the file system: dir(path), the names in the order in
   which they are listed with the mark of a directory, and the bytes of the
   files, if they exist. *)
Record disk := mkDisk { listing : list Z -> list (list Z * bool); bytes_at : list Z -> option (list Z) }.
Definition slash : Z := 47%Z.
Definition path (d n : list Z) : list Z := d ++ slash :: n.

(* the directory d has the files [l], listed in this order, among directories *)
Definition has_files (k : disk) (d : list Z) (l : list (list Z * list Z)) : Prop :=
  map fst (filter (fun e => negb (snd e)) (listing k d)) = map fst l /\
  listing k (d ++ [slash]) = listing k d /\
  Forall (fun f => bytes_at k (path d (fst f)) = Some (snd f)) l.

(* the records whose names are not to be avoided *)
Definition among (avoid : list (list Z)) (n : list Z) : bool := existsb (fun a => if list_eq_dec Z.eq_dec n a then true else false) avoid.
Definition wanted (avoid : list (list Z)) (rs : list (list Z * value)) : list (list Z * value) := filter (fun r => negb (among avoid (fst r))) rs.
(* the value has no elements: its object is [] *)
Definition no_elements (v : value) : Prop :=
  match v with VRs _ | VCs _ => True | VR t => selts t = [] | VC t => selts t = [] | _ => False end.

(* the order of names in a listing *)
Fixpoint name_before (a b : list Z) : bool :=
  match a, b with
  | [], [] => false
  | [], _ => true
  | _, [] => false
  | x :: a, y :: b => (x <? y)%Z || ((x =? y)%Z && name_before a b)
  end.
Fixpoint in_order (l : list (list Z)) : bool :=
  match l with a :: (b :: _) as m => name_before a b && in_order m | _ => true end.
