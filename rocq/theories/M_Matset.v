(* Model of the Matlab reader of data sets, matlab/sdf_load_dataset.m: the files of
   a directory, one per job, are read into one struct.  The globals SDF_DATA and
   SDF_AVOID are the state; warnings are not modelled. *)
From Verif Require Import Base Spec S_Sdf S_Pysdf S_Matsdf S_Matset M_Sdf M_Pysdf M_Matsdf.
Local Open Scope Z_scope.

(* rmfield, an error if there is no such field, sdf_load_dataset.m:59 *)
Definition rmfield (data : struct) (name : list Z) : outcome struct :=
  match get_item data name with
  | None => Abort
  | Some _ => Ok (filter (fun e => if list_eq_dec Z.eq_dec (fst e) name then false else true) data)
  end.
(* SDF_DATA and SDF_AVOID, sdf_load_dataset.m:2, 31 *)
Definition globals := (struct * list (list Z))%type.
(* try ... catch ... end, sdf_load_dataset.m:47-61; the body is that of sdf_load.m *)
Definition set_store (g : globals) (name ds : list Z) (obj : mobj) : outcome globals :=
  match mat_store (fst g) name ds obj with
  | Abort => d <- rmfield (fst g) name ;; Ok (d, snd g ++ [name])
  | Ok d => Ok (d, snd g)
  | UB => UB
  | Hang => Hang
  end.
(* the loop of sdf_load_one, sdf_load_dataset.m:35-63 *)
Fixpoint set_loop (depth fuel : nat) (g : globals) (s : mst) : outcome (globals * mst) :=
  match fuel with
  | O => Hang
  | S fuel =>
    if at_eof s then Ok (g, s) else
    '(obj, name, ds, s) <- mat_record_load depth s ;;
    let name := if existsb (fun a => if list_eq_dec Z.eq_dec name a then true else false) (snd g) then [] else name in
    match name with
    | [] => if mempty obj then Ok (g, s) else set_loop depth fuel g s
    | _ => g <- set_store g name ds obj ;; set_loop depth fuel g s
    end
  end.
(* sdf_load_one, sdf_load_dataset.m:30-71: the tag type and the byte order are
   what the previous file has left *)
Definition set_one (k : disk) (depth : nat) (g : globals) (tag : nat) (endian : option bool) (filename : list Z) : outcome (globals * mst) :=
  match bytes_at k filename with
  | None => Abort
  | Some file => set_loop depth (S (length file)) g (mkM file tag endian false)
  end.
(* for i = 1:length(list), sdf_load_dataset.m:12-16 *)
Fixpoint set_files (k : disk) (depth : nat) (directory : list Z) (l : list (list Z * bool)) (g : globals) (tag : nat) (endian : option bool) : outcome globals :=
  match l with
  | [] => Ok g
  | (name, isdir) :: l =>
    if isdir : bool then set_files k depth directory l g tag endian
    else '(g, s) <- set_one k depth g tag endian (directory ++ [slash] ++ name) ;;
      set_files k depth directory l g (tag_type s) (big_endian s)
  end.
(* k = find(directory == '/'), directory(1:(k(end)-1)), sdf_load_dataset.m:7-10 *)
Fixpoint last_slash (i : nat) (l : list Z) : option nat :=
  match l with
  | [] => None
  | c :: l => match last_slash (S i) l with Some k => Some k | None => if c =? slash then Some i else None end
  end.
(* directory(1:(k(end)-1)), sdf_load_dataset.m:8-10 *)
Definition trim (directory : list Z) : list Z :=
  match last_slash 1 directory with None => directory | Some k => firstn (k - 1) directory end.
(* sdf_load_dataset(directory), sdf_load_dataset.m:1-18: the struct, and what
   SDF_AVOID is afterwards *)
Definition load_dataset (k : disk) (depth : nat) (avoid : list (list Z)) (tag : nat) (endian : option bool) (directory : list Z) : outcome globals :=
  set_files k depth (trim directory) (listing k directory) ([], avoid) tag endian.
(* sdf_load_dataset(directory, f), sdf_load_dataset.m:19-27 *)
Definition load_variable (k : disk) (depth : nat) (avoid : list (list Z)) (tag : nat) (endian : option bool) (directory f : list Z) : outcome mobj :=
  g <- load_dataset k depth avoid tag endian directory ;;
  match get_item (fst g) f with Some o => Ok o | None => Abort end.
