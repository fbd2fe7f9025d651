(* Model of opening an index while another process commits: c/src/index.c sis_find_segments_file with sis_read, sis_read_current_version
   and ir_open as its callers, on a directory which changes between any two of the reader's system calls.
   The reader's i-th access sees the directory ds i; a listing that is its i-th access gives the names ls i (ls i = names (ds i) when
   readdir is atomic).  Reading a file is one access: files only grow while they are written, is_refill asks for the length again
   whenever its buffer is empty, so what a reader sees is the file at the moment of its last refill; a file removed after it was opened
   stays readable.
   Not modelled: the store's mutex (readers in the same process wait for a commit), the sleeping. *)
From Coq Require Import String.
From Verif Require Import Util Codec_Model Seg_Model Commit_Model.
Open Scope Z_scope.

Definition GEN_FILE_RETRY_COUNT : nat := 10.                                   (* index.c:830 *)
(* index.c:868-897: opening the file "segments", again when it is missing; gen_from_file is its content's use *)
Fixpoint gen_file_loop (ds : nat -> dir) (tries : nat) (gen : Z) (i : nat) : Z * nat :=
  match tries with
  | O => (gen, i)
  | S n => match lookup GEN_FILE (ds i) with
           | None => gen_file_loop ds n gen (S i)
           | Some _ => (gen_from_file (ds i) gen, S i)
           end
  end.
(* index.c:832-1002 sis_find_segments_file.  run i gen is the callback started at access i: its outcome and the next access.  The
   loop of the program has no bound; OutOfFuel says that it is still going on *)
Fixpoint race_loop {A} (run : nat -> Z -> ran A * nat) (ls : nat -> list (list Z)) (ds : nat -> dir)
    (fuel look : nat) (retry : bool) (method : nat) (last gen : Z) (i : nat) : found A * nat :=
  match fuel with
  | O => (OutOfFuel, i)
  | S f =>
      let '(gen, i) := if (method =? 0)%nat then (current_generation (ls i), S i) else (gen, i) in
      if (method =? 0)%nat && (gen =? -1) then (NotFound, i)
      else
        let b1 := ((method =? 1)%nat || ((method =? 0)%nat && (last =? gen) && retry)) in
        let method := if b1 then 1%nat else method in
        let '(gen, i) := if b1 then gen_file_loop ds GEN_FILE_RETRY_COUNT gen i else (gen, i) in
        let b2 := ((method =? 2)%nat || ((method =? 1)%nat && (last =? gen) && retry)) in
        let method := if b2 then 2%nat else method in
        let ahead := b2 && (look <? GEN_LOOK_AHEAD_COUNT)%nat in
        let gen := if ahead then gen + 1 else gen in
        let look := if ahead then S look else look in
        if (last =? gen) && retry then (IoError, i)
        else
          let retry := last =? gen in
          match run i gen with
          | (Ran v, i) => (Found gen v, i)
          | (Escapes, i) => (OtherExc, i)
          | (Dies, i) => (Crashed, i)
          | (Failed, i) =>
              if negb retry && (gen >? 1) then
                match segfn_for_generation (gen - 1) with
                | None => (OtherExc, i)
                | Some prev =>
                    match lookup prev (ds i) with
                    | None => race_loop run ls ds f look retry method gen gen (S i)
                    | Some _ => match run (S i) (gen - 1) with
                                | (Ran v, i) => (Found (gen - 1) v, i)
                                | (Escapes, i) => (OtherExc, i)
                                | (Dies, i) => (Crashed, i)
                                | (Failed, i) => race_loop run ls ds f look retry method gen gen i
                                end
                    end
                end
              else race_loop run ls ds f look retry method gen gen i
          end
  end.
Definition race_find {A} (run : nat -> Z -> ran A * nat) (ls : nat -> list (list Z)) (ds : nat -> dir) (fuel : nat) : found A * nat :=
  race_loop run ls ds fuel 0 false 0 (-1) 0 0.
(* index.c:1082-1127 sis_read, 1169-1193 sis_read_current_version: one file is read *)
Definition read_run {A} (p : parser A) (ds : nat -> dir) (i : nat) (gen : Z) : ran A * nat := (run_file p (ds i) gen, S i).
(* index.c:5101-5141 ir_open_i: the descriptor is read, then the files of its segments are opened one after the other; needs s lists
   them.  A missing file raises FILE_NOT_FOUND_ERROR (fs_store.c:fs_open_input), which goes through ir_open_i *)
Fixpoint open_files (ds : nat -> dir) (l : list (list Z)) (i : nat) : option (list (list Z)) * nat :=
  match l with
  | [] => (Some [], i)
  | fn :: t => match lookup fn (ds i) with
               | None => (None, S i)
               | Some c => let '(r, i) := open_files ds t (S i) in (option_map (cons c) r, i)
               end
  end.
Definition open_run (needs : seg_infos -> list (list Z)) (ds : nat -> dir) (i : nat) (gen : Z) : ran (seg_infos * list (list Z)) * nat :=
  match run_file dec_sis (ds i) gen with
  | Ran s => match open_files ds (needs s) (S i) with
             | (Some cs, i) => (Ran (s, cs), i)
             | (None, i) => (Failed, i)
             end
  | Failed => (Failed, S i) | Escapes => (Escapes, S i) | Dies => (Dies, S i)
  end.

(* The committing process.  A commit writes and removes files of segments, writes the descriptor (index.c:1129-1167 sis_write with a
   deleter), removes the previous descriptor once more when a reader commits (index.c:4100-4134 ir_commit_i), and writes and removes
   files of segments again. *)
Record commit := mkCommit { c_pre : list fop; c_new : seg_infos; c_reader : bool; c_post : list fop }.
Definition descriptor_ops (g : Z) (h : commit) : list fop :=
  match sis_write (g + 1) (c_new h) true, segfn_for_generation g with
  | Some w, Some prev => w ++ (if c_reader h then [Remove prev] else [])
  | _, _ => []
  end.
Definition commit_ops (g : Z) (h : commit) : list fop := c_pre h ++ descriptor_ops g h ++ c_post h.
(* the directory after the first c commits *)
Fixpoint world (d : dir) (g : Z) (H : list commit) (c : nat) : dir :=
  match c, H with
  | S c, h :: t => world (apply_ops d (commit_ops g h)) (g + 1) t c
  | _, _ => d
  end.
(* the directory when j operations have been done and k bytes of the next one, if it is a write *)
Definition partway (d : dir) (ops : list fop) (j k : nat) : dir :=
  let d' := apply_ops d (firstn j ops) in
  match nth_error ops j with Some (Write n off bs) => apply_op d' (Write n off (firstn k bs)) | _ => d' end.
(* a moment: c commits are finished, j operations of the next one and k bytes of the operation after those *)
Definition moment : Type := nat * nat * nat.
Definition dir_at (d : dir) (g : Z) (H : list commit) (x : moment) : dir :=
  let '(c, j, k) := x in
  match nth_error H c with
  | None => world d g H c
  | Some h => partway (world d g H c) (commit_ops (g + Z.of_nat c) h) j k
  end.
