(* Vocabulary for seeding the random numbers. *)
From Verif Require Import Base.
Local Open Scope Z_scope.

(* white space in the C locale: blank, \t \n \v \f \r *)
Definition white (c : Z) : Prop := In c [32; 9; 10; 11; 12; 13].
(* a decimal number as text: white space, perhaps a sign, digits, and then something
   that is not a digit, or nothing *)
Inductive sign := NoSign | Plus | Minus.
Definition sign_text (s : sign) : list Z := match s with NoSign => [] | Plus => [43] | Minus => [45] end.
Definition number (s : sign) (digits : list Z) : Z :=
  (match s with Minus => -1 | _ => 1 end) * fold_left (fun a d => 10 * a + d) digits 0.
Definition is_text (text : list Z) (s : sign) (digits : list Z) : Prop :=
  digits <> [] /\ Forall (fun d => 0 <= d <= 9) digits /\
  exists spaces rest, Forall white spaces /\ text = spaces ++ sign_text s ++ map (fun d => 48 + d) digits ++ rest /\
    match rest with [] => True | c :: _ => c < 48 \/ 57 < c end.
Definition is_byte (b : Z) : Prop := 0 <= b < 256.
