(* Vocabulary for jobs and flags. *)
From Verif Require Import Base Spec M_Jobs.
Local Open Scope string_scope.
Local Open Scope list_scope.
Local Open Scope nat_scope.

(* The words of a line: maximal runs of characters that are not separators *)
Definition separators : list ascii := [" "; "009"; "010"; ","; ";"]%char.
Inductive words_of : list ascii -> list (list ascii) -> Prop :=
| no_words seps : Forall (fun c => In c separators) seps -> words_of seps []
| one_word seps w rest ws :
    Forall (fun c => In c separators) seps -> w <> [] -> Forall (fun c => ~ In c separators) w ->
    (rest = [] \/ exists c r, rest = c :: r /\ In c separators) ->
    words_of rest ws -> words_of (seps ++ w ++ rest) (w :: ws).
Definition line_words (s : string) (ws : list string) : Prop :=
  words_of (list_ascii_of_string s) (map list_ascii_of_string ws).

(* the words that are options *)
Definition option_names : list string :=
  ["--job"; "--print-jobs"; "--this-job"; "--job-blocks"; "--first-job"; "--last-job"; "--variable"; "--help"].
(* --variable d1 --variable d2 ... *)
Definition variable_args (ds : list string) : list string := flat_map (fun d => ["--variable"; d]) ds.
(* the integers a, a+1, ..., b-1 *)
Definition interval (a b : Z) : list Z := map (fun i => a + Z.of_nat i)%Z (seq 0 (Z.to_nat (b - a))).

Section Jobs.
Context {V : Type} (atof : string -> V) (atoi : string -> Z) (linspace : V -> V -> Z -> outcome (list V)).

(* the definitions ds are correct and give the variables vars, each with at
   least one value *)
Definition defines (ds : list string) (vars : list (variable V)) : Prop :=
  Forall2 (fun d v => parse_line atof atoi linspace d = Ok v) ds vars /\
  Forall (fun v => vname v <> "" /\ vvalues v <> []) vars.
(* the position of the value each variable has, and the numbers of values *)
Definition picks (j : job V) : list nat := map vwhich (variables j).
Definition sizes (vars : list (variable V)) : list nat := map (fun v => List.length (vvalues v)) vars.

(* A program with these arguments, that loops over its jobs, runs through the
   states l *)
Definition visits (file : string -> list string) (args : list string) (l : list (job V)) : Prop :=
  exists j, new_job atof atoi linspace file args = Ok (Some j) /\
  exists F, forall fuel, F <= fuel -> run fuel j = Ok l.
(* it runs the jobs with numbers l *)
Definition does (file : string -> list string) (args : list string) (l : list Z) : Prop :=
  exists states, visits file args states /\ map this_job states = l.
End Jobs.

(* the value of key k after a history of calls: None if it does not exist *)
Fixpoint keys {D} (h : list (flag_op D)) : nat :=
  match h with [] => 0 | Create _ :: h => S (keys h) | _ :: h => keys h end.
(* h is the history, latest call first *)
Fixpoint last_value {D} (h : list (flag_op D)) (k : nat) : option D :=
  match h with
  | [] => None
  | Create v :: h => if k =? keys h then Some v else last_value h k
  | SetKey k' v :: h => if k =? k' then Some v else last_value h k
  end.
