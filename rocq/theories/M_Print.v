(* Model of the text output: include/tensor/io.h, include/tensor/detail/io.hpp,
   src/views/matrix_form*.cc, the operator<< of numbers.h.
   A stream is the text written so far; [show] is what operator<< writes for one
   element, with the flags, precision and locale of the stream (operator<< of
   doubles, integers and booleans belongs to the standard library).  A field width set
   by the caller, which applies to the first bracket only, and streams that fail
   are not modelled. *)
From Coq Require Import Ascii String.
From Verif Require Import Base Spec S_Print M_Tensor S_Sparse M_Sparse.
Local Open Scope nat_scope.

Section Print.
Context {A : Type} (show : A -> text).

(* write_to_stream, io.hpp:27-35: the loop from [first] on *)
Fixpoint write_from (first : bool) (l : list A) (s : text) : text :=
  match l with
  | [] => s
  | x :: l =>
    let s := if first then s else s ++ lit ", " in
    write_from false l (s ++ show x)
  end.
(* io.hpp:27-35 *)
Definition write_to_stream (s : text) (l : list A) : text := write_from true l s.

(* operator<<(Vector), io.hpp:37-43; operator<<(StaticVector), io.h:42-46, converts to
   a Vector with the same elements *)
Definition print_vector (s : text) (v : list A) : text :=
  write_to_stream (s ++ lit "[") v ++ lit "]".
End Print.

Section PrintTensor.
Context {A : Type} (show_index : nat -> text) (show : A -> text).

(* operator<<(Tensor), io.hpp:45-51 *)
Definition print_tensor (s : text) (t : tensor A) : text :=
  let s := print_vector show_index (s ++ lit "(") (dims t) ++ lit ")/[" in
  write_to_stream show s (data t) ++ lit "]".

(* operator<<(Sparse), io.h:49-53 *)
Definition print_sparse (N : numops A) (junk : nat -> A) (s : text) (m : sparse A) : outcome text :=
  t <- full N junk m ;; Ok (print_tensor s t).

(* MatrixForm::display, matrix_form.cc:24-55 *)
Definition display (s : text) (t : tensor A) : outcome text :=
  if 2 <? List.length (dims t) then Abort
  else if List.length (dims t) =? 2 then
    rows <- dimension t 0 ;;
    cols <- dimension t 1 ;;
    s <- for_ rows (fun i s =>
      let s := if i =? 0 then s ++ lit "[" else s ++ [ascii_of_nat 10; " "%char] in
      for_ cols (fun j s =>
        let s := if j =? 0 then s else s ++ lit ", " in
        x <- get2 t (Z.of_nat i) (Z.of_nat j) ;; Ok (s ++ show x)) s) s ;;
    Ok (s ++ lit "]")
  else if List.length (dims t) =? 1 then
    s <- for_ (List.length (data t)) (fun i s =>
      let s := if i =? 0 then s ++ lit "[" else s ++ lit ", " in
      x <- rd (data t) i ;; Ok (s ++ show x)) s ;;
    Ok (s ++ lit "]")
  else Ok s.
(* matrix_form(Sparse), matrix_form_sp_d.cc:25-28, matrix_form_sp_z.cc:25-28 *)
Definition display_sparse (N : numops A) (junk : nat -> A) (s : text) (m : sparse A) : outcome text :=
  t <- full N junk m ;; display s t.
End PrintTensor.

(* operator<<(cdouble), numbers.h:97-99 *)
Definition print_complex {R} (show : R -> text) (s : text) (z : R * R) : text :=
  ((s ++ show (fst z)) ++ lit " ") ++ show (snd z).
