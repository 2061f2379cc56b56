(* Model of fftshift, src/fftw/fftshift.cc.  The element type is arbitrary: the
   code never looks at the elements. *)
From Verif Require Import Base Spec M_Tensor M_Range M_Scale.

(* include/tensor/fftw.h:36-39 *)
Definition FFTW_FORWARD : Z := (-1)%Z.
(* fftw.h:38 *)
Definition FFTW_BACKWARD : Z := 1%Z.

Section Shift.
Context {A : Type} (fuel : nat) (junk : nat -> A).

(* fftshift(input, dim, direction), fftshift.cc:35-80.  [fuel] bounds the loops
   of the two slice assignments (M_Range.v).  minfreq-- happens only for odd
   sizes above 1, so the unsigned numbers are faithful. *)
Definition fftshift_dim (input : tensor A) (dim : Z) (direction : Z) : outcome (tensor A) :=
  _ <- assert_ ((0 <=? dim) && (dim <? Z.of_nat (length (dims input))))%Z ;;
  let d := Z.to_nat dim in
  n <- rd (dims input) d ;;
  if n =? 1 then Ok input else
  before <- prod_range (dims input) 0 d ;;
  after <- prod_range (dims input) (S d) (length (dims input)) ;;
  let output := new_tensor junk [before; n; after] in
  reshape_input <- reshape input (dims output) ;;
  let '(minfreq, Nhalf) :=
    if n mod 2 =? 1 then
      if (direction =? FFTW_BACKWARD)%Z then ((n + 1) / 2 - 1, (n - 1) / 2 + 1)
      else ((n + 1) / 2, (n - 1) / 2)
    else (n / 2, n / 2) in
  let end_ := (Z.of_nat n - 1)%Z in
  output <- assign_view fuel output [SFull; SStep 0 (Z.of_nat Nhalf - 1) 1; SFull]%Z
              reshape_input [SFull; SStep (Z.of_nat minfreq) end_ 1; SFull]%Z ;;
  output <- assign_view fuel output [SFull; SStep (Z.of_nat Nhalf) end_ 1; SFull]%Z
              reshape_input [SFull; SStep 0 (Z.of_nat minfreq - 1) 1; SFull]%Z ;;
  reshape output (dims input).

(* fftshift(input, direction), fftshift.cc:24-33 *)
Definition fftshift_all (input : tensor A) (direction : Z) : outcome (tensor A) :=
  for_ (length (dims input)) (fun dim output => fftshift_dim output (Z.of_nat dim) direction) input.

(* fftshift(input, convert, direction), fftshift.cc:82-94 *)
Definition fftshift_some (input : tensor A) (convert : list bool) (direction : Z) : outcome (tensor A) :=
  _ <- assert_ (length (dims input) =? length convert) ;;
  for_ (length (dims input)) (fun dim output =>
    c <- rd convert dim ;;
    if c : bool then fftshift_dim output (Z.of_nat dim) direction else Ok output) input.
End Shift.
