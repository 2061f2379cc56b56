(* Specification vocabulary for C09-C13. *)
From Verif Require Import Base Spec M_Range.

(* start, start+step, ... (n terms) *)
Definition arith (start step n : nat) : list nat := map (fun k => start + step * k) (seq 0 n).

(* the positions a range selects in a dimension of extent d, in order *)
Inductive selects (d : nat) : rspec -> list nat -> Prop :=
| sel_full : selects d SFull (seq 0 d)
| sel_single p : p < d -> selects d (SSingle (Z.of_nat p)) [p]
| sel_step a b s : a <= b -> b < d -> 0 < s ->
    selects d (SStep (Z.of_nat a) (Z.of_nat b) (Z.of_nat s)) (arith a s ((b - a) / s + 1))
| sel_index l : Forall (fun p => p < d) l -> selects d (SIndex (map Z.of_nat l)) l.

(* one selection per dimension *)
Fixpoint selections (ds : list nat) (ss : list rspec) (sels : list (list nat)) : Prop :=
  match ds, ss, sels with
  | [], [], [] => True
  | d :: ds', s :: ss', sel :: sels' => selects d s sel /\ selections ds' ss' sels'
  | _, _, _ => False
  end.

(* ps are the coordinates selected by the k-tuple ks *)
Fixpoint picks (sels : list (list nat)) (ks ps : list nat) : Prop :=
  match sels, ks, ps with
  | [], [], [] => True
  | sel :: sels', k :: ks', p :: ps' => nth_error sel k = Some p /\ picks sels' ks' ps'
  | _, _, _ => False
  end.

(* dimensions of the slice *)
Definition sizes (sels : list (list nat)) : list nat := map (@length nat) sels.

(* ranges written with non-negative positions, start <= end and a positive
   step, and whose index list does not mention the extent itself *)
Definition ordinary (d : nat) (s : rspec) : Prop :=
  match s with
  | SFull => True
  | SSingle i => (0 <= i)%Z
  | SStep a b st => (0 <= a <= b)%Z /\ (0 < st)%Z
  | SIndex l => Forall (fun i => 0 <= i /\ i <> Z.of_nat d)%Z l
  end.

(* a position beyond the end of a dimension of extent d: what the library
   checks.  The extent itself is not found in an index list. *)
Definition beyond (d : nat) (s : rspec) : Prop :=
  match s with
  | SFull => False
  | SSingle i => (Z.of_nat d <= i)%Z
  | SStep _ b _ => (Z.of_nat d <= b)%Z
  | SIndex l => Exists (fun i => Z.of_nat d < i)%Z l
  end.

(* a list of ranges the library refuses on a tensor with dimensions ds and n
   elements: one range addresses the elements linearly; otherwise one range per
   dimension is needed *)
Definition refused (ds : list nat) (n : nat) (ss : list rspec) : Prop :=
  match ss with
  | [s] => beyond n s
  | _ => length ss <> length ds \/ exists k d s, nth_error ds k = Some d /\ nth_error ss k = Some s /\ beyond d s
  end.
