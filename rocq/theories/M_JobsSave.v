(* Model of Job::dump_variables, src/tools/jobs_save.cc, and of programs that
   save what their jobs compute.  The values of the variables are doubles,
   given by their 64 bits. *)
From Verif Require Import Base Spec S_Sdf M_Jobs M_Sdf.

(* the characters of a std::string. Variable::name, jobs.h:59 *)
Definition codes (s : string) : list Z := map (fun c => Z.of_nat (nat_of_ascii c)) (list_ascii_of_string s).
(* using a value, whose computation may fail, in a program. Used for Variable::value, jobs.h:63 *)
Definition eval {T} (x : outcome T) : prog T := fun s => (x, s, []).

(* dump_variables, jobs_save.cc:24-30; OutDataFile::dump(double, name),
   odata_file.cc:227-232; Variable::value, jobs.h:63 *)
Fixpoint dump_vars (f : ofile) (vs : list (variable Z)) : prog unit :=
  match vs with
  | [] => ret tt
  | v :: vs => x <~ eval (var_value v) ;;; _ <~ dump_to f (codes (vname v), VDouble x) ;;; dump_vars f vs
  end.
(* jobs_save.cc:24-30 *)
Definition dump_variables (f : ofile) (j : job Z) : prog unit := dump_vars f (variables j).

(* { OutDataFile f(name, m); job.dump_variables(f); f.dump(...); ... }: not code
   of the library, but the use dump_variables is for (jobs.h:43) *)
Definition job_session (m : mode) (j : job Z) (rs : list (list Z * value)) : prog unit :=
  f <~ open_out m ;;; _ <~ dump_variables f j ;;; _ <~ dump_all f rs ;;; _ <~ close_out f ;;; ret tt.
(* the same as the body of the loop for (; job.to_do(); ++job), whose states
   are M_Jobs.run, jobs.h:38-43 *)
Fixpoint job_sessions (m : mode) (l : list (job Z)) : prog unit :=
  match l with [] => ret tt | j :: l => _ <~ job_session m j [] ;;; job_sessions m l end.
