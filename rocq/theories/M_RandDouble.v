(* Model of the random doubles in IEEE arithmetic: src/rand/rand64.cc, rand32.cc,
   include/tensor/rand.h.  x, y: raw outputs of the generator (M_Rand). *)
From Coq Require Import Reals.
From Verif Require Import Base M_Rand M_Double.
Local Open Scope Z_scope.

(* 1.0/9007199254740992.0, rand64.cc:173, rand32.cc:175 *)
Definition inv53 : double := ddiv (dofZ 1) (dofZ 9007199254740992).
(* genrand_res53, rand64.cc:171-174, and rand<double>, rand.cc:119-121 *)
Definition rand_double_64 (x : Z) : double := dmul (dofZ (Z.shiftr x 11)) inv53.
(* genrand_res53, rand32.cc:172-176 *)
Definition rand_double_32 (x y : Z) : double :=
  dmul (dadd (dmul (dofZ (Z.shiftr x 5)) (dofZ 67108864)) (dofZ (Z.shiftr y 6))) inv53.
(* rand<double>(upper), rand.h:54-56, with the number r given by rand<double>() *)
Definition rand_upper (r upper : double) : double := dmul upper r.
(* rand<double>(lower, upper), rand.h:58-61 *)
Definition rand_between (r lower upper : double) : double := dadd (rand_upper r (dsub upper lower)) lower.
