(* Model of the random number generators, src/rand/rand64.cc, rand32.cc, rand.cc,
   include/tensor/rand.h.  uint64_t and uint32_t are integers modulo 2^64, 2^32.
   Both generators are instances of one definition; the constants are the
   macros and literals of the files. *)
From Verif Require Import Base S_Reduce.
Local Open Scope Z_scope.

(* the constants of rand64.cc:62-141 and rand32.cc:52-139 *)
Record mt_params := mkMT {
  NN : nat; MM : nat; wbits : Z;
  MATRIX_A : Z; UM : Z; LM : Z;
  init_mul : Z; init_shift : Z;                   (* init_genrand *)
  key_shift : Z; key_mul1 : Z; key_mul2 : Z; key_first : Z;  (* init_by_array *)
  temper : Z -> Z }.

(* rand64.cc:138-141 *)
Definition temper64 (x : Z) : Z :=
  let x := Z.lxor x (Z.land (Z.shiftr x 29) 0x5555555555555555) in
  let x := Z.lxor x (Z.land (Z.shiftl x 17 mod 2 ^ 64) 0x71D67FFFEDA60000) in
  let x := Z.lxor x (Z.land (Z.shiftl x 37 mod 2 ^ 64) 0xFFF7EEE000000000) in
  Z.lxor x (Z.shiftr x 43).
(* rand32.cc:135-139 *)
Definition temper32 (y : Z) : Z :=
  let y := Z.lxor y (Z.shiftr y 11) in
  let y := Z.lxor y (Z.land (Z.shiftl y 7 mod 2 ^ 32) 0x9d2c5680) in
  let y := Z.lxor y (Z.land (Z.shiftl y 15 mod 2 ^ 32) 0xefc60000) in
  Z.lxor y (Z.shiftr y 18).
(* rand64.cc:62-66, 79, 92, 99, 105, 138-141 *)
Definition mt64 : mt_params :=
  mkMT 312 156 64 0xB5026F5AA96619E9 0xFFFFFFFF80000000 0x7FFFFFFF
    6364136223846793005 62 62 3935559000370003845 2862933555777941757 (2 ^ 63) temper64.
(* rand32.cc:52-56, 67, 88, 96, 103, 135-139 *)
Definition mt32 : mt_params :=
  mkMT 624 397 32 0x9908b0df 0x80000000 0x7fffffff
    1812433253 30 30 1664525 1566083941 0x80000000 temper32.

(* mt[NN] and mti, rand64.cc:70-72 *)
Record mt_state := mkMS { mt : list Z; mti : nat }.
(* rand64.cc:70-72 *)
Definition mt_start (p : mt_params) : mt_state := mkMS (repeat 0 (NN p)) (NN p + 1).

Section MT.
Context (p : mt_params).

(* init_genrand, rand64.cc:75-80, rand32.cc:62-75 *)
Definition init_genrand (seed : Z) (st : mt_state) : outcome mt_state :=
  m <- wr (mt st) 0 (seed mod 2 ^ wbits p) ;;
  m <- for_ (NN p - 1) (fun i m =>
         prev <- rd m i ;;
         wr m (S i) ((init_mul p * (Z.lxor prev (Z.shiftr prev (init_shift p))) + Z.of_nat (S i)) mod 2 ^ wbits p)) m ;;
  Ok (mkMS m (NN p)).

(* init_by_array, rand64.cc:85-106, rand32.cc:81-104 *)
Definition init_by_array (key : list Z) (st : mt_state) : outcome mt_state :=
  st <- init_genrand 19650218 st ;;
  let len := length key in
  let next_i (m : list Z) (i : nat) : outcome (list Z * nat) :=
    if (NN p <=? S i)%nat then last <- rd m (NN p - 1) ;; m <- wr m 0 last ;; Ok (m, 1%nat) else Ok (m, S i) in
  '(m, i, j) <- for_ (Nat.max (NN p) len) (fun _ s =>
      let '(m, i, j) := s in
      a <- rd m i ;; b <- rd m (i - 1) ;; k <- rd key j ;;
      m <- wr m i ((Z.lxor a ((Z.lxor b (Z.shiftr b (key_shift p)) * key_mul1 p) mod 2 ^ wbits p) + k + Z.of_nat j) mod 2 ^ wbits p) ;;
      '(m, i) <- next_i m i ;;
      Ok (m, i, if (len <=? S j)%nat then 0%nat else S j)) (mt st, 1%nat, 0%nat) ;;
  '(m, i) <- for_ (NN p - 1) (fun _ s =>
      let '(m, i) := s in
      a <- rd m i ;; b <- rd m (i - 1) ;;
      m <- wr m i ((Z.lxor a ((Z.lxor b (Z.shiftr b (key_shift p)) * key_mul2 p) mod 2 ^ wbits p) - Z.of_nat i) mod 2 ^ wbits p) ;;
      next_i m i) (m, i) ;;
  m <- wr m 0 (key_first p) ;;
  Ok (mkMS m (mti st)).

(* rand64.cc:123-124: the new word from mt[i], mt[i+1] and mt[i+MM] *)
Definition mix (u v m : Z) : Z :=
  let x := Z.lor (Z.land u (UM p)) (Z.land v (LM p)) in
  Z.lxor (Z.lxor m (Z.shiftr x 1)) (if Z.land x 1 =? 1 then MATRIX_A p else 0).

(* the new block, rand64.cc:121-131, rand32.cc:119-128 *)
Definition refill (m : list Z) : outcome (list Z) :=
  m <- for_ (NN p - MM p) (fun i m =>
         u <- rd m i ;; v <- rd m (i + 1) ;; w <- rd m (i + MM p) ;; wr m i (mix u v w)) m ;;
  m <- for_ (MM p - 1) (fun j m =>
         let i := (NN p - MM p + j)%nat in
         u <- rd m i ;; v <- rd m (i + 1) ;; w <- rdZ m (Z.of_nat i + (Z.of_nat (MM p) - Z.of_nat (NN p))) ;; wr m i (mix u v w)) m ;;
  u <- rd m (NN p - 1) ;; v <- rd m 0 ;; w <- rd m (MM p - 1) ;; wr m (NN p - 1) (mix u v w).

(* genrand_int64, rand64.cc:109-144; genrand_int32, rand32.cc:107-142 *)
Definition genrand (st : mt_state) : outcome (Z * mt_state) :=
  st <- (if (NN p <=? mti st)%nat then
           st <- (if (mti st =? NN p + 1)%nat then init_genrand 5489 st else Ok st) ;;
           m <- refill (mt st) ;; Ok (mkMS m 0)
         else Ok st) ;;
  x <- rd (mt st) (mti st) ;;
  Ok (temper p x, mkMS (mt st) (S (mti st))).

(* draw n numbers, rand64.cc:109-144 *)
Fixpoint draws (n : nat) (st : mt_state) : outcome (list Z * mt_state) :=
  match n with
  | O => Ok ([], st)
  | S n => '(x, st) <- genrand st ;; '(l, st) <- draws n st ;; Ok (x :: l, st)
  end.

(* a program that uses the generator: set_seed, rand.cc:44-47, reseeding from
   the operating system, rand.cc:84-99 (without the warming up, which is draws),
   drawing *)
Inductive rand_op := Seed (s : Z) | SeedArray (key : list Z) | Draw.
(* set_seed, rand.cc:44-47; rand.cc:84-99 *)
Definition rand_step (o : rand_op) (st : mt_state) : outcome mt_state :=
  match o with
  | Seed s => init_genrand s st
  | SeedArray key => init_by_array key st
  | Draw => '(_, st) <- genrand st ;; Ok st
  end.
(* a history of calls, rand.h:31-52 *)
Fixpoint rand_run (h : list rand_op) (st : mt_state) : outcome mt_state :=
  match h with [] => Ok st | o :: h => st <- rand_step o st ;; rand_run h st end.
End MT.

(* ---- numbers made of them, 64 bits ---- *)

(* genrand_res53, rand64.cc:171-174, in units of 2^-53: the product is exact *)
Definition res53_64 (x : Z) : Z := Z.shiftr x 11.
(* genrand_res53, rand32.cc:172-176, in units of 2^-53 *)
Definition res53_32 (x y : Z) : Z := Z.shiftr x 5 * 67108864 + Z.shiftr y 6.
(* (float) of a number of units of 2^-53: 24 significant bits, ties to even.
   Used in rand.cc:115-117 *)
Definition round_float (x : Z) : Z :=
  let e := Z.log2 x - 23 in
  if e <=? 0 then x else
  let p := 2 ^ e in
  let q := x / p in
  let r := x mod p in
  (if 2 * r <? p then q else if p <? 2 * r then q + 1 else if Z.even q then q else q + 1) * p.
(* rand<float>, rand.cc:115-117 *)
Definition rand_float (x : Z) : Z := round_float (res53_64 x).

(* conversions to int, unsigned int, long, to int, rand.h:63-67 *)
Definition to_int (x : Z) : Z := let x := x mod 2 ^ 32 in if x <? 2 ^ 31 then x else x - 2 ^ 32.
(* to unsigned int, rand.h:63-67, rand.cc:105 *)
Definition to_uint (x : Z) : Z := x mod 2 ^ 32.
(* to long, rand.h:73-77 *)
Definition to_long (x : Z) : Z := let x := x mod 2 ^ 64 in if x <? 2 ^ 63 then x else x - 2 ^ 64.
(* signed arithmetic overflows, rand.h:69-71 *)
Definition int_range (x : Z) : outcome Z := if (- 2 ^ 31 <=? x) && (x <? 2 ^ 31) then Ok x else UB.
(* rand.h:79-81 *)
Definition long_range (x : Z) : outcome Z := if (- 2 ^ 63 <=? x) && (x <? 2 ^ 63) then Ok x else UB.

(* The following take the raw 64-bit output x.
   rand<int>(upper), rand.h:63-67: the remainder is unsigned *)
Definition rand_int_upper (x upper : Z) : Z :=
  if upper =? 0 then 0 else to_int (to_uint x mod to_uint upper).
(* rand<int>(lower, upper), rand.h:69-71 *)
Definition rand_int (x lower upper : Z) : outcome Z :=
  d <- int_range (upper - lower) ;; int_range (rand_int_upper x d + lower).
(* rand<long>(upper), rand.h:73-77: the cast comes before the remainder, which
   has the sign of the dividend; LONG_MIN % -1 overflows *)
Definition rand_long_upper (x upper : Z) : outcome Z :=
  if upper =? 0 then Ok 0 else if (to_long x =? - 2 ^ 63) && (upper =? -1) then UB else Ok (Z.rem (to_long x) upper).
(* rand<long>(lower, upper), rand.h:79-81 *)
Definition rand_long (x lower upper : Z) : outcome Z :=
  d <- long_range (upper - lower) ;; r <- rand_long_upper x d ;; long_range (r + lower).
(* rand<unsigned long>(upper), rand.h:83-87 *)
Definition rand_ulong_upper (x upper : Z) : Z := if upper =? 0 then 0 else x mod upper.
(* rand<unsigned long>(lower, upper), rand.h:89-91 *)
Definition rand_ulong (x lower upper : Z) : Z :=
  (rand_ulong_upper x ((upper - lower) mod 2 ^ 64) + lower) mod 2 ^ 64.
