(* Model of tic and toc, src/tools/tictoc.cc, where there is gettimeofday; one
   thread.  The clock is what each call finds it to be. *)
From Verif Require Import Base M_Double S_Time.

(* the literal 1e-6, tictoc.cc:36 *)
Definition micro : double := dmake 4722366482869645 (-72).
(* now(), tictoc.cc:29-40 *)
Definition now (t : moment) : double :=
  let seconds := dofZ (sec t) in
  let museconds := dofZ (usec t) in
  dadd seconds (dmul micro museconds).

(* calls of tic(), toc() and toc(when), tictoc.cc:45-74 *)
Inductive call := Tic | Toc | TocSince (when : double).
(* one call at the moment t: what it returns and sometime; tictoc.cc:45-48, 58-61,
   71-74 *)
Definition step (sometime : double) (c : call) (t : moment) : double * double :=
  match c with
  | Tic => let sometime := now t in (sometime, sometime)
  | Toc => (dsub (now t) sometime, sometime)
  | TocSince when => (dsub (now t) when, sometime)
  end.
(* the results of some calls, one after the other, tictoc.cc:42-74 *)
Fixpoint calls (sometime : double) (l : list (call * moment)) : list double :=
  match l with
  | [] => []
  | (c, t) :: l => let '(r, sometime) := step sometime c t in r :: calls sometime l
  end.
(* static double sometime, tictoc.cc:42, is zero when the program starts *)
Definition program (l : list (call * moment)) : list double := calls (dofZ 0) l.
