(* Vocabulary for random tensors: the numbers of the published generator
   (S_Rand) as multiples of 2^-53. *)
From Coq Require Import Reals.
From Flocq Require Import Core.
From Verif Require Import Base.

Definition units (k : Z) : R := (IZR k * bpow radix2 (-53))%R.
(* the k-th number in [0, 1): 53 bits of the word w k, or of two words of 32 bits *)
Definition bits64 (w : nat -> Z) (k : nat) : Z := (w k / 2 ^ 11)%Z.
Definition bits32 (w : nat -> Z) (k : nat) : Z := (w (2 * k)%nat / 2 ^ 5 * 2 ^ 26 + w (2 * k + 1)%nat / 2 ^ 6)%Z.
