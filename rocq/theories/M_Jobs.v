(* Model of jobs::Job (src/tools/jobs.cc, include/tensor/jobs.h) and of Flags
   (src/tools/flags.cc).  Integers do not overflow. *)
From Coq Require Export String Ascii.
From Verif Require Import Base.
Local Open Scope string_scope.
Local Open Scope list_scope.
Local Open Scope Z_scope.

Section Jobs.
Context {V : Type}.
(* atof, atoi of the C library; linspace(min, max, n), see M_Linspace *)
Context (atof : string -> V) (atoi : string -> Z) (linspace : V -> V -> Z -> outcome (list V)).

(* is_separator, jobs.cc:25-29 *)
Definition is_separator (c : ascii) : bool :=
  (Ascii.eqb c " ") || (Ascii.eqb c "009") || (Ascii.eqb c "010") || (Ascii.eqb c ",") || (Ascii.eqb c ";").

(* split_string, jobs.cc:31-49.  The characters from position i on; fuel is for
   the outer loop, the length of the string is enough. *)
Fixpoint skip_separators (s : list ascii) : list ascii :=
  match s with [] => [] | c :: s' => if is_separator c then skip_separators s' else s end.
(* the inner loop over a word, jobs.cc:41-46 *)
Fixpoint word_end (s : list ascii) : list ascii * list ascii :=
  match s with
  | [] => ([], [])
  | c :: s' => if is_separator c then ([], s) else let '(w, r) := word_end s' in (c :: w, r)
  end.
(* the outer loop, jobs.cc:36-47 *)
Fixpoint split_loop (fuel : nat) (s : list ascii) : list string :=
  match fuel with
  | O => []
  | S fuel =>
    match skip_separators s with
    | [] => []
    | c :: s' => let '(w, r) := word_end s' in string_of_list_ascii (c :: w) :: split_loop fuel r
    end
  end.
(* jobs.cc:31-49 *)
Definition split_string (s : string) : list string :=
  let l := list_ascii_of_string s in split_loop (List.length l) l.

(* Variable, jobs.h:50-69 *)
Record variable := mkVar { vname : string; vvalues : list V; vwhich : nat }.
(* jobs.h:55-57, jobs.cc:51 *)
Definition no_variable : variable := mkVar "" [] 0.
(* jobs.h:52-54 *)
Definition new_variable name mn mx n : outcome variable :=
  values <- linspace mn mx n ;; Ok (mkVar name values 0).

(* parse_line, jobs.cc:53-87 *)
Definition parse_line (s : string) : outcome variable :=
  match split_string s with
  | [] => Ok no_variable
  | [_] => Ok no_variable
  | [name; a] => new_variable name (atof a) (atof a) 1
  | [name; a; b] => new_variable name (atof a) (atof b) 10
  | [name; a; b; n] => new_variable name (atof a) (atof b) (atoi n)
  | _ => Ok no_variable
  end.

(* parse_file, jobs.cc:89-102: returns the line number and the variables.  buffer
   is never read from s; were the name not empty the loop would go on for ever. *)
Definition parse_file (s : list string) (vars : list variable) : outcome (Z * list variable) :=
  let buffer := "" in
  v <- parse_line buffer ;;
  if String.eqb (vname v) "" then Ok (0, vars) else Hang.

(* the local variables of the constructor; None is an uninitialised number,
   jobs.cc:107-113, jobs.h:74-77 *)
Record options := mkO {
  o_print : bool; o_first_found : bool; o_last_found : bool; o_blocks_found : bool; o_this_found : bool;
  o_blocks : option Z; o_current : option Z; o_first : option Z; o_last : option Z;
  o_vars : list variable; o_file : string }.
(* jobs.cc:104-113 *)
Definition no_options : options := mkO false false false false false None None None None [] "no file".

(* whether the loop ends or the program exits, jobs.cc:204 *)
Inductive parsed := Parsed (o : options) | Exited.

(* the loop over the arguments, jobs.cc:115-206.  file gives the lines of the
   files that can be opened. *)
Fixpoint parse_args (file : string -> list string) (args : list string) (o : options) : outcome parsed :=
  match args with
  | [] => Ok (Parsed o)
  | a :: args =>
    if String.eqb a "--job" then
      match args with
      | [] => Abort
      | f :: args =>
        '(line, vars) <- parse_file (file f) (o_vars o) ;;
        if line =? 0 then
          parse_args file args (mkO (o_print o) (o_first_found o) (o_last_found o) (o_blocks_found o) (o_this_found o)
                                  (o_blocks o) (o_current o) (o_first o) (o_last o) vars f)
        else Abort
      end
    else if String.eqb a "--print-jobs" then
      parse_args file args (mkO true (o_first_found o) (o_last_found o) (o_blocks_found o) (o_this_found o)
                              (o_blocks o) (o_current o) (o_first o) (o_last o) (o_vars o) (o_file o))
    else if String.eqb a "--this-job" then
      match args with
      | [] => Abort
      | n :: args =>
        parse_args file args (mkO (o_print o) (o_first_found o) (o_last_found o) (o_blocks_found o) true
                                (o_blocks o) (Some (atoi n)) (o_first o) (o_last o) (o_vars o) (o_file o))
      end
    else if String.eqb a "--job-blocks" then
      match args with
      | [] => Abort
      | n :: args =>
        parse_args file args (mkO (o_print o) (o_first_found o) (o_last_found o) true (o_this_found o)
                                (Some (atoi n)) (o_current o) (o_first o) (o_last o) (o_vars o) (o_file o))
      end
    else if String.eqb a "--first-job" then
      if o_this_found o then Abort else
      match args with
      | [] => Abort
      | n :: args =>
        parse_args file args (mkO (o_print o) true (o_last_found o) (o_blocks_found o) (o_this_found o)
                                (o_blocks o) (o_current o) (Some (atoi n)) (o_last o) (o_vars o) (o_file o))
      end
    else if String.eqb a "--last-job" then
      if negb (o_first_found o) then Abort else
      match args with
      | [] => Abort
      | n :: args =>
        parse_args file args (mkO (o_print o) (o_first_found o) true (o_blocks_found o) (o_this_found o)
                                (o_blocks o) (o_current o) (o_first o) (Some (atoi n)) (o_vars o) (o_file o))
      end
    else if String.eqb a "--variable" then
      match args with
      | [] => Abort
      | s :: args =>
        v <- parse_line s ;;
        if String.eqb (vname v) "" then Abort else
        parse_args file args (mkO (o_print o) (o_first_found o) (o_last_found o) (o_blocks_found o) (o_this_found o)
                                (o_blocks o) (o_current o) (o_first o) (o_last o) (o_vars o ++ [v]) (o_file o))
      end
    else if String.eqb a "--help" then Ok Exited
    else parse_args file args o
  end.

(* Job, jobs.h:71-77 *)
Record job := mkJob { variables : list variable; number_of_jobs : Z; this_job : Z; first_job : option Z; last_job : option Z }.

(* reading an uninitialised number. Such a read is undefined behaviour, jobs.cc:222-228, 303-306 *)
Definition get (x : option Z) : outcome Z := match x with Some v => Ok v | None => UB end.

(* compute_number_of_jobs, jobs.cc:266-276 *)
Definition compute_number_of_jobs (vars : list variable) : Z :=
  fold_left (fun n v => n * Z.of_nat (List.length (vvalues v))) vars 1.

(* the loop of select_job, jobs.cc:282-290 *)
Fixpoint select_loop (vars : list variable) (i : Z) : outcome (list variable) :=
  match vars with
  | [] => Ok []
  | v :: vars =>
    let n := Z.of_nat (List.length (vvalues v)) in
    if n =? 0 then UB else
    rest <- select_loop vars (Z.quot i n) ;;
    Ok (mkVar (vname v) (vvalues v) (Z.to_nat (Z.rem i n)) :: rest)
  end.
(* select_job, jobs.cc:278-292 *)
Definition select_job (which : Z) (j : job) : outcome job :=
  _ <- assert_ (0 <=? which) ;;
  vars <- (if which <=? number_of_jobs j then select_loop (variables j) which else Ok (variables j)) ;;
  Ok (mkJob vars (number_of_jobs j) which (first_job j) (last_job j)).

(* the rest of the constructor, jobs.cc:207-264: Ok None if the program exits *)
Definition setup (o : options) : outcome (option job) :=
  let number := compute_number_of_jobs (o_vars o) in
  if o_print o then Ok None else
  '(current, first, last) <-
    (if o_blocks_found o then
       if o_first_found o || o_last_found o then Abort else
       blocks <- get (o_blocks o) ;;
       if blocks <=? 0 then Abort else
       let delta := Z.quot (number + blocks - 1) blocks in
       c <- get (o_current o) ;;
       let c := Z.min (c * delta) number in
       Ok (c, Some c, Some (Z.min (number - 1) (c + delta - 1)))
     else if o_first_found o then
       first <- get (o_first o) ;;
       if first <? 0 then Abort else
       if number <=? first then Abort else
       last <- (if o_last_found o then
                  last <- get (o_last o) ;;
                  let last := if number <=? last then Z.max 0 (number - 1) else last in
                  if last <? first then Abort else Ok (Some last)
                else Ok (o_last o)) ;;
       Ok (first, Some first, last)
     else if o_this_found o then
       c <- get (o_current o) ;; Ok (c, Some c, Some c)
     else Ok (0, Some 0, Some (number - 1))) ;;
  j <- select_job current (mkJob (o_vars o) number 0 first last) ;;
  Ok (Some j).

(* Job::Job, jobs.cc:104-264 *)
Definition new_job (file : string -> list string) (args : list string) : outcome (option job) :=
  p <- parse_args file args no_options ;;
  match p with Exited => Ok None | Parsed o => setup o end.

(* operator++, jobs.cc:294-298 *)
Definition next_job (j : job) : outcome job := select_job (this_job j + 1) j.
(* to_do, jobs.cc:300-307 *)
Definition to_do (j : job) : outcome bool :=
  if negb ((0 <=? this_job j) && (this_job j <? number_of_jobs j)) then Ok false else
  f <- get (first_job j) ;;
  if negb (f <=? this_job j) then Ok false else
  l <- get (last_job j) ;;
  Ok (this_job j <=? l).

(* Variable::value, jobs.h:63, and get_value, get_value_with_default,
   jobs.cc:309-338 *)
Definition var_value (v : variable) : outcome V := rd (vvalues v) (vwhich v).
(* jobs.cc:309-318 *)
Definition find_variable (j : job) (name : string) : option variable :=
  find (fun v => String.eqb (vname v) name) (variables j).
(* jobs.cc:320-330 *)
Definition get_value (j : job) (name : string) : outcome V :=
  match find_variable j name with Some v => var_value v | None => Abort end.
(* jobs.cc:333-338 *)
Definition get_value_with_default (j : job) (name : string) (def : V) : outcome V :=
  match find_variable j name with Some v => var_value v | None => Ok def end.

(* for (; job.to_do(); ++job) ...: the states in which the body runs.
   Not code of the library: the loop its interface is for, jobs.h:38-39 *)
Fixpoint run (fuel : nat) (j : job) : outcome (list job) :=
  match fuel with
  | O => Hang
  | S fuel =>
    b <- to_do j ;;
    if b : bool then j' <- next_job j ;; l <- run fuel j' ;; Ok (j :: l) else Ok []
  end.
End Jobs.
Arguments variable V : clear implicits.
Arguments job V : clear implicits.

(* ---- Flags, flags.cc:25-58 ---- *)

Section Flags.
Context {D : Type}.
Local Open Scope nat_scope.
(* Flags::Flags, flags.cc:29-32 *)
Definition flags := list D.
(* flags.cc:29-32 *)
Definition no_flags : flags := [].
(* get, flags.cc:34-37: no check *)
Definition flag_get (f : flags) (code : nat) : outcome D := rd f code.
(* set, flags.cc:39-47 *)
Definition flag_set (f : flags) (code : nat) (value : D) : outcome flags :=
  if List.length f <=? code then Abort else wr f code value.
(* create_key, flags.cc:49-54; fewer than 2^31 keys *)
Definition flag_create (f : flags) (value : D) : flags * nat := (f ++ [value], List.length f).

(* the calls that change the flags, flags.h:32-34 *)
Inductive flag_op := Create (v : D) | SetKey (k : nat) (v : D).
(* flags.cc:39-54 *)
Definition flag_step (f : flags) (o : flag_op) : outcome flags :=
  match o with Create v => Ok (fst (flag_create f v)) | SetKey k v => flag_set f k v end.
(* a history of calls, flags.h:27-38 *)
Fixpoint flag_run (f : flags) (h : list flag_op) : outcome flags :=
  match h with [] => Ok f | o :: h => f <- flag_step f o ;; flag_run f h end.
End Flags.
Arguments flags D : clear implicits.
Arguments flag_op D : clear implicits.
