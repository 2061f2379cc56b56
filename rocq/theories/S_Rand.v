(* The Mersenne Twister, as published: a sequence of words x 0, x 1, ... *)
From Verif Require Import Base.
Local Open Scope Z_scope.

(* MT19937-64: w = 64, n = 312, m = 156, r = 31 *)
Definition twist64 (u v m : Z) : Z :=
  let y := u / 2 ^ 31 * 2 ^ 31 + v mod 2 ^ 31 in
  Z.lxor m (Z.lxor (y / 2) (if Z.odd y then 13043109905998158313 else 0)).
Definition recurrence64 (x : nat -> Z) : Prop :=
  forall k, x (k + 312)%nat = twist64 (x k) (x (k + 1)%nat) (x (k + 156)%nat).
Definition seeded64 (s : Z) (x : nat -> Z) : Prop :=
  x 0%nat = s mod 2 ^ 64 /\
  forall i, (0 < i < 312)%nat ->
    let p := x (i - 1)%nat in x i = (6364136223846793005 * Z.lxor p (p / 2 ^ 62) + Z.of_nat i) mod 2 ^ 64.
Definition output64 (x : Z) : Z :=
  let x := Z.lxor x (Z.land (x / 2 ^ 29) 6148914691236517205) in
  let x := Z.lxor x (Z.land (x * 2 ^ 17 mod 2 ^ 64) 8202884508482404352) in
  let x := Z.lxor x (Z.land (x * 2 ^ 37 mod 2 ^ 64) 18444473444759240704) in
  Z.lxor x (x / 2 ^ 43).

(* MT19937: w = 32, n = 624, m = 397, r = 31 *)
Definition twist32 (u v m : Z) : Z :=
  let y := u / 2 ^ 31 * 2 ^ 31 + v mod 2 ^ 31 in
  Z.lxor m (Z.lxor (y / 2) (if Z.odd y then 2567483615 else 0)).
Definition recurrence32 (x : nat -> Z) : Prop :=
  forall k, x (k + 624)%nat = twist32 (x k) (x (k + 1)%nat) (x (k + 397)%nat).
Definition seeded32 (s : Z) (x : nat -> Z) : Prop :=
  x 0%nat = s mod 2 ^ 32 /\
  forall i, (0 < i < 624)%nat ->
    let p := x (i - 1)%nat in x i = (1812433253 * Z.lxor p (p / 2 ^ 30) + Z.of_nat i) mod 2 ^ 32.
Definition output32 (x : Z) : Z :=
  let x := Z.lxor x (x / 2 ^ 11) in
  let x := Z.lxor x (Z.land (x * 2 ^ 7 mod 2 ^ 32) 2636928640) in
  let x := Z.lxor x (Z.land (x * 2 ^ 15 mod 2 ^ 32) 4022730752) in
  Z.lxor x (x / 2 ^ 18).
