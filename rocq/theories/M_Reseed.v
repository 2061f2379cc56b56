(* Model of rand_reseed and of the integers, src/rand/rand.cc, not Windows.
   Over M_Rand.  SEED_SIZE is 1, rand.cc:41. *)
From Verif Require Import Base M_Rand.
Local Open Scope Z_scope.

(* What rand_reseed asks the system for: the text of RANDSEED (rand.cc:76), the
   bytes that /dev/urandom gives, None if it cannot be opened (rand.cc:83), and
   time(0) (rand.cc:90) *)
Record system := mkSys { randseed : option (list Z); urandom : option (list Z); now : Z }.

(* isspace, for atoi in rand.cc:78 *)
Definition is_space (c : Z) : bool := (c =? 32) || ((9 <=? c) && (c <=? 13)).
(* atoi skips spaces, rand.cc:78 *)
Fixpoint skip_spaces (l : list Z) : list Z :=
  match l with c :: l' => if is_space c then skip_spaces l' else l | [] => [] end.
(* atoi reads digits up to the first other character, rand.cc:78 *)
Fixpoint read_digits (acc : Z) (l : list Z) : Z :=
  match l with
  | c :: l => if (48 <=? c) && (c <=? 57) then read_digits (10 * acc + (c - 48)) l else acc
  | [] => acc
  end.
(* atoi, rand.cc:78; undefined if the number is no int (C standard, 7.22.1) *)
Definition atoi (l : list Z) : outcome Z :=
  match skip_spaces l with
  | 45 :: l => int_range (- read_digits 0 l)
  | 43 :: l => int_range (read_digits 0 l)
  | l => int_range (read_digits 0 l)
  end.

(* fread(&seed, sizeof(rand_uint), 1, fp) on a little-endian machine, rand.cc:84-86:
   n bytes; what is not read keeps its old, uninitialised contents *)
Definition seed_bytes (n : nat) (junk bytes : list Z) : list Z :=
  firstn n (firstn n bytes ++ skipn (length bytes) junk).
(* the number of these bytes, rand.cc:86 *)
Definition word_of (bytes : list Z) : Z := fold_right (fun b acc => b + 256 * acc) 0 bytes.

Section Reseed.
Context (p : mt_params).
(* rand_reseed, rand.cc:49, 76-99.  The line printed is left out.  The warming
   up, rand.cc:95-98, is draws: rand<long>() draws one number in both
   configurations (rand.cc:106, 111). *)
Definition rand_reseed (sys : system) (junk : list Z) (st : mt_state) : outcome mt_state :=
  match randseed sys with
  | Some text => seed <- atoi text ;; init_genrand p seed st
  | None =>
    st <- (match urandom sys with
           | Some bytes => init_by_array p [word_of (seed_bytes (Z.to_nat (wbits p / 8)) junk bytes)] st
           | None => init_genrand p (to_int (now sys)) st
           end) ;;
    '(_, st) <- draws p (624 * 10) st ;; Ok st
  end.
End Reseed.

(* rand<int>(), rand.cc:104, with genrand_int63, rand64.cc:147-150: an int64_t
   that becomes an int *)
Definition rand_int64_any (x : Z) : Z := to_int (Z.shiftr x 1).
(* rand<unsigned int>(), rand.cc:105 *)
Definition rand_uint64_any (x : Z) : Z := to_uint x.
(* rand<long>(), rand.cc:106, with genrand_int63, rand64.cc:147-150 *)
Definition rand_long64_any (x : Z) : Z := to_long (Z.shiftr x 1).
(* rand<unsigned long>(), rand.cc:107 *)
Definition rand_ulong64_any (x : Z) : Z := x.
(* rand<int>() and rand<long>() with 32 bits, rand.cc:109, 111, and genrand_int31,
   rand32.cc:145-148 *)
Definition rand_int32_any (x : Z) : Z := to_int (Z.shiftr x 1).
(* rand<unsigned int>() and rand<unsigned long>() with 32 bits, rand.cc:110, 112 *)
Definition rand_uint32_any (x : Z) : Z := x.
