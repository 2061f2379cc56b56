(* Vocabulary for the clock: what gettimeofday reports. *)
From Coq Require Import Reals.
From Verif Require Import Base.

(* seconds since 1970 and microseconds *)
Record moment := mkMoment { sec : Z; usec : Z }.
(* before the year 2106, and the microseconds are part of a second *)
Definition ok_moment (t : moment) : Prop := (0 <= sec t < 2 ^ 32 /\ 0 <= usec t < 1000000)%Z.
(* in the next hundred million years *)
Definition far_moment (t : moment) : Prop := (0 <= sec t < 2 ^ 52 /\ 0 <= usec t < 1000000)%Z.
Definition not_after (a b : moment) : Prop := (sec a * 1000000 + usec a <= sec b * 1000000 + usec b)%Z.
(* the seconds of a moment, exactly *)
Definition seconds (t : moment) : R := (IZR (sec t) + IZR (usec t) / 1000000)%R.
Definition microsecond : R := (/ 1000000)%R.
