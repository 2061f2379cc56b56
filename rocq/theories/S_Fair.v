(* Counting words. *)
From Verif Require Import Base.
Local Open Scope Z_scope.

(* exactly c of the numbers 0 .. n-1 satisfy P *)
Definition counts (P : Z -> Prop) (n c : Z) : Prop :=
  exists l : list Z, NoDup l /\ (forall x, In x l <-> 0 <= x < n /\ P x) /\ Z.of_nat (length l) = c.

(* c is n/w, rounded down or up *)
Definition fair_share (n w c : Z) : Prop := c * w <= n + w - 1 /\ n - w + 1 <= c * w.
