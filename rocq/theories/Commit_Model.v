(* Model of committing: c/src/index.c sis_write, sis_find_segments_file, sis_read, the Deleter and ir_commit_i,
   on a directory of named byte strings (c/src/fs_store.c).
   Crash model: system calls take effect in program order; the last write before the crash may be cut at any byte.
   Not modelled: the mutexes, sleeping between retries, other processes acting between two retries of a reader,
   exceptions raised by write or remove. *)
From Coq Require Import String.
From Verif Require Import Util Codec_Model Seg_Model.
Open Scope Z_scope.

(* ---------- the directory *)
Definition dir := list (list Z * list Z).
Definition names (d : dir) : list (list Z) := map fst d.
Fixpoint lookup (n : list Z) (d : dir) : option (list Z) :=
  match d with [] => None | (m, c) :: t => if beqb m n then Some c else lookup n t end.
Fixpoint remove (n : list Z) (d : dir) : dir :=
  match d with [] => [] | (m, c) :: t => if beqb m n then remove n t else (m, c) :: remove n t end.
Fixpoint set (n c : list Z) (d : dir) : dir :=
  match d with [] => [(n, c)] | (m, x) :: t => if beqb m n then (m, c) :: t else (m, x) :: set n c t end.
(* overwriting a file's bytes from an offset on *)
Definition put_at (c : list Z) (off : nat) (bs : list Z) : list Z := firstn off c ++ bs ++ skipn (off + length bs) c.
Inductive fop := Create (n : list Z) | Write (n : list Z) (off : nat) (bs : list Z) | Remove (n : list Z).
Definition apply_op (d : dir) (o : fop) : dir :=
  match o with
  | Create n => match lookup n d with Some _ => d | None => set n [] d end    (* fs_store.c fs_new_output: no truncation *)
  | Write n off bs => match lookup n d with Some c => set n (put_at c off bs) d | None => d end
  | Remove n => remove n d
  end.
Definition apply_ops (d : dir) (ops : list fop) : dir := fold_left apply_op ops d.
(* the directories a crash while executing ops can leave *)
Inductive crash : dir -> list fop -> dir -> Prop :=
| C_stop d ops : crash d ops d
| C_cut d n off bs k ops : (k <= length bs)%nat -> crash d (Write n off bs :: ops) (apply_op d (Write n off (firstn k bs)))
| C_step d o ops d' : crash (apply_op d o) ops d' -> crash d (o :: ops) d'.

(* ---------- writing a commit *)
Definition GEN_FILE : list Z := str "segments".
(* index.c:1129-1167 sis_write for generation gen (already incremented); the pending set of the deleter is not needed here.
   None is the exception of the name functions or of the encoder running out of room, which does not happen. *)
Definition sis_write (gen : Z) (s : seg_infos) (with_deleter : bool) : option (list fop) :=
  do fn <- segfn_for_generation gen;
  do bs <- enc_sis s;
  do old <- (if with_deleter && (gen >? 0) then do p <- segfn_for_generation (gen - 1); Some [Remove p] else Some []);
  Some ([Create fn; Write fn 0 bs; Create GEN_FILE; Write GEN_FILE 0 (enc_64 gen ++ enc_64 gen)] ++ old).
(* index.c:4100-4134 ir_commit_i of an owning reader, after the segment files have been written by commit_i:
   deleter_delete_file(curr_seg_fn) follows sis_write *)
Definition ir_commit (d : dir) (gen : Z) (s : seg_infos) : option (list fop) :=
  do curr <- segfn_for_generation (current_generation (names d));
  do w <- sis_write gen s true;
  Some (w ++ [Remove curr]).

(* ---------- reading a commit *)
Inductive found (A : Type) := Found (gen : Z) (v : A) | NotFound | IoError | OtherExc | Crashed | OutOfFuel.
Arguments Found {A}. Arguments NotFound {A}. Arguments IoError {A}. Arguments OtherExc {A}. Arguments Crashed {A}. Arguments OutOfFuel {A}.
Inductive ran (A : Type) := Ran (v : A) | Failed | Escapes | Dies.
Arguments Ran {A}. Arguments Failed {A}. Arguments Escapes {A}. Arguments Dies {A}.
(* index.c:1082-1120 sis_read_i, 1169-1186 sis_read_ver_i: Failed is IO_ERROR, FILE_NOT_FOUND_ERROR or EOF_ERROR *)
Definition run_file {A} (p : parser A) (d : dir) (gen : Z) : ran A :=
  match segfn_for_generation gen with
  | None => Escapes
  | Some fn => match lookup fn d with
               | None => Failed
               | Some c => match p c with POk v _ => Ran v | PEof => Failed | PArg => Escapes | PUB => Dies end
               end
  end.
Definition GEN_LOOK_AHEAD_COUNT : nat := 10.
(* index.c:864-900: the file "segments"; a missing file is retried and then ignored *)
Definition gen_from_file (d : dir) (gen : Z) : Z :=
  match lookup GEN_FILE d with
  | None => gen
  | Some c =>
      let '(g0, g1) := match dec_i64 c with
                       | ROk a t => (a, match dec_i64 t with ROk b _ => b | _ => -1 end)
                       | _ => (-1, -1)
                       end in
      if (g0 =? g1) && (g0 >? gen) then g0 else gen
  end.
(* index.c:832-1002 sis_find_segments_file *)
Fixpoint find_loop {A} (p : parser A) (d : dir) (fuel : nat) (look : nat) (retry : bool) (method : nat) (last gen : Z) : found A :=
  match fuel with
  | O => OutOfFuel
  | S f =>
      let gen := if (method =? 0)%nat then current_generation (names d) else gen in
      if (method =? 0)%nat && (gen =? -1) then NotFound
      else
        let b1 := ((method =? 1)%nat || ((method =? 0)%nat && (last =? gen) && retry)) in
        let method := if b1 then 1%nat else method in
        let gen := if b1 then gen_from_file d gen else gen in
        let b2 := ((method =? 2)%nat || ((method =? 1)%nat && (last =? gen) && retry)) in
        let method := if b2 then 2%nat else method in
        let ahead := b2 && (look <? GEN_LOOK_AHEAD_COUNT)%nat in
        let gen := if ahead then gen + 1 else gen in
        let look := if ahead then S look else look in
        if (last =? gen) && retry then IoError
        else
          let retry := last =? gen in
          match run_file p d gen with
          | Ran v => Found gen v
          | Escapes => OtherExc
          | Dies => Crashed
          | Failed =>
              let again := find_loop p d f look retry method gen gen in
              if negb retry && (gen >? 1) then
                match segfn_for_generation (gen - 1) with
                | None => OtherExc
                | Some prev =>
                    match lookup prev d with
                    | None => again
                    | Some _ => match run_file p d (gen - 1) with
                                | Ran v => Found (gen - 1) v | Escapes => OtherExc | Dies => Crashed | Failed => again end
                    end
                end
              else again
          end
  end.
Definition FIND_FUEL : nat := 40.
Definition find_segments {A} (p : parser A) (d : dir) : found A := find_loop p d FIND_FUEL 0 false 0 (-1) 0.
(* index.c:1122-1127 sis_read, 1188-1193 sis_read_current_version *)
Definition sis_read (d : dir) : found seg_infos := find_segments dec_sis d.
Definition read_current_version (d : dir) : found Z := find_segments dec_version d.

(* ---------- the deleter *)
(* index.c:50-52 *)
Definition INDEX_EXTENSIONS : list (list Z) := map str ["frq"; "prx"; "fdx"; "fdt"; "tfx"; "tix"; "tis"; "del"; "gen"; "cfs"]%string.
(* index.c:55-57 *)
Definition COMPOUND_EXTENSIONS : list (list Z) := map str ["frq"; "prx"; "fdx"; "fdt"; "tfx"; "tix"; "tis"]%string.
(* strrchr: the text in front of the last c *)
Fixpoint before_last (c : Z) (s : list Z) : option (list Z) :=
  match s with
  | [] => None
  | x :: t => match before_last c t with Some r => Some (x :: r) | None => if x =? c then Some [] else None end
  end.
Definition is_digit (c : Z) : bool := (48 <=? c) && (c <=? 57).
(* index.c:3631-3655 file_name_filter_is_index_file without locks *)
Definition is_index_file (fn : list Z) : bool :=
  match after_last DOT fn with
  | Some ext => existsb (beqb ext) INDEX_EXTENSIONS ||
                match ext with a :: b :: _ => ((a =? 102) || (a =? 115)) && is_digit b | _ => false end
  | None => prefixb (str "segments") fn
  end.
(* index.c:3662-3681 file_name_filter_is_cfs_file *)
Definition is_cfs_file (fn : list Z) : bool :=
  match after_last DOT fn with
  | Some ext => (existsb (beqb ext) INDEX_EXTENSIONS && negb (beqb ext (str "del")) && negb (beqb ext (str "gen")) && negb (beqb ext (str "cfs"))) ||
                match ext with a :: b :: _ => (a =? 102) && is_digit b | _ => false end
  | None => false
  end.
(* atoi on digits *)
Fixpoint atoi_from (u : Z) (s : list Z) : Z := match s with c :: t => if is_digit c then atoi_from (u * 10 + (c - 48)) t else u | [] => u end.
(* index.c:670-681 si_norm_file_name; the outer None is NULL *)
Definition si_norm_file_name (si : seg_info) (num : Z) : option (option (list Z)) :=
  match nth_error (si_norm_gens si) (Z.to_nat num) with
  | None => None
  | Some g => if g <? 0 then None
              else Some (fn_for_gen_field (si_name si) (if si_cfs si && (g >? 0) then str "s" else str "f") g num)
  end.
(* the tail of a name behind its first character: p = strrchr(segment_name + 1, '_') *)
Definition strip_generation (s : list Z) : list Z :=
  match s with
  | [] => []
  | x :: t => match before_last US t with Some r => x :: r | None => s end
  end.
(* h_get(current, segment_name): for equal names the segment stored last *)
Definition find_si (n : list Z) (segs : list seg_info) : option seg_info := find (fun s => beqb (si_name s) n) (rev segs).
(* index.c:3745-3820 deleter_find_deletable_files_i: true when the file is queued for deletion; None is the use of a NULL
   extension, of an uninitialised tmp_fn, or the exception of the name functions *)
Definition deletable (curr : list Z) (segs : list seg_info) (fn : list Z) : option bool :=
  if is_index_file fn && negb (beqb fn curr) && negb (beqb fn GEN_FILE) then
    let ext := after_last DOT fn in
    let base := match before_last DOT fn with Some b => b | None => fn end in
    match find_si (strip_generation base) segs with
    | None => Some true
    | Some si =>
        if is_cfs_file fn && si_cfs si then Some true
        else
          match ext with
          | None => None
          | Some ext =>
              if beqb ext (str "del") then
                match fn_for_generation (si_name si) (str "del") (si_del_gen si) with
                | None => Some true
                | Some None => None
                | Some (Some t) => Some (negb (beqb fn t))
                end
              else
                match ext with
                | a :: b :: _ =>
                    if ((a =? 115) || (a =? 102)) && is_digit b then
                      match si_norm_file_name si (atoi_from 0 (tl ext)) with
                      | Some (Some t) => Some (negb (beqb t fn))
                      | _ => None
                      end
                    else Some (beqb ext (str "cfs") && negb (si_cfs si))
                | _ => Some (beqb ext (str "cfs") && negb (si_cfs si))
                end
          end
    end
  else Some false.
(* index.c:3830-3860, 3721-3728 deleter_find_deletable_files and deleter_commit_pending_deletions on a directory *)
Fixpoint deletable_files (curr : list Z) (segs : list seg_info) (l : list (list Z)) : option (list (list Z)) :=
  match l with
  | [] => Some []
  | fn :: t => do b <- deletable curr segs fn; do r <- deletable_files curr segs t; Some (if b then fn :: r else r)
  end.
Definition delete_deletable (d : dir) (s : seg_infos) : option dir :=
  do curr <- segfn_for_generation (current_generation (names d));
  do l <- deletable_files curr (sis_segs s) (names d);
  Some (apply_ops d (map Remove l)).

(* ---------- readers *)
(* index.c:4392-4395 sr_is_latest_i, 4926-4936 mr_is_latest_i, 5116-5134 ir_open_i (one segment gives a SegmentReader, otherwise a
   MultiReader asks each of its sub readers); None stands for an exception or crash while reading the descriptor *)
Definition sr_is_latest (d : dir) (version : Z) : option bool :=
  match read_current_version d with Found _ v => Some (v =? version) | _ => None end.
Fixpoint mr_is_latest (d : dir) (version : Z) (subs : nat) : option bool :=
  match subs with
  | O => Some true
  | S n => match sr_is_latest d version with Some true => mr_is_latest d version n | r => r end
  end.
Definition ir_is_latest (d : dir) (version : Z) (segs : nat) : option bool :=
  if (segs =? 1)%nat then sr_is_latest d version else mr_is_latest d version segs.
(* index.c:3946-3949 ir_index_exists *)
Definition ir_index_exists (d : dir) : bool := negb (current_generation (names d) =? 1).
(* index.c:3882-3919 ir_acquire_write_lock. lock_file: the write lock exists in the store.  The reader keeps is_stale and whether
   write_lock is NULL *)
Inductive acquired := Acquired | LockError | StateError | ReadError.
Record reader := mkReader { r_version : Z; r_stale : bool; r_lock : bool }.
Definition acquire_write_lock (d : dir) (lock_file : bool) (r : reader) : acquired * bool * reader :=
  if r_stale r then (StateError, lock_file, r)
  else if r_lock r then (Acquired, lock_file, r)
  else
    let r1 := mkReader (r_version r) (r_stale r) true in                      (* write_lock = open_lock(...) *)
    if lock_file then (LockError, true, r1)                                     (* obtain fails: RAISE *)
    else match read_current_version d with
         | Found _ v => if v >? r_version r then (StateError, false, mkReader (r_version r) true false)
                        else (Acquired, true, r1)
         | _ => (ReadError, true, r1)
         end.
