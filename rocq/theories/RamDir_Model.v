(* Model of the directory of a RAM store: c/src/ram_store.c (files with reference counts, the table of names), and Directory of ruby/ext/r_store.c.
   Strings and RAMFiles are cells of two heaps, None once freed; an access to a freed cell is undefined (None).
   The table is a list of entries with the hash of the name, the pointer to the key and the pointer to the file (that the table of hash.c is a map: C12;
   the order of the list is not that of the slots).  As in h_lookup, keys are read only where the hashes are equal.
   A file's data is a list of bytes (its blocks: C05); a stream is its file and position.
   Not modelled: buffers of the streams (C03, C04), locks as objects, sizes over int, lack of memory. *)
From Coq Require Import String.
From Verif Require Import Util Codec_Model Seg_Model.
Open Scope Z_scope.

Record rfile := mkRf { rf_name : nat; rf_data : list Z; rf_refs : nat }.
Record entry := mkE { e_hash : Z; e_key : nat; e_file : nat }.
Definition strs := list (option (list Z)).
Definition files := list (option rfile).
Record ram := mkRam { r_strs : strs; r_files : files; r_tab : list entry; r_open : list (option (nat * nat)) }.
Definition cell {A} (l : list (option A)) (p : nat) : option A := match nth_error l p with Some (Some x) => Some x | _ => None end.
Fixpoint set_nth {A} (l : list A) (p : nat) (x : A) : list A := match l, p with [], _ => [] | _ :: t, O => x :: t | a :: t, S p => a :: set_nth t p x end.
(* free: only what is allocated *)
Definition free_cell {A} (l : list (option A)) (p : nat) : option (list (option A)) := do x <- cell l p; Some (set_nth l p None).

Section HASH.
  (* c/src/hash.c str_hash *)
  Variable H : list Z -> Z.
  (* h_lookup (hash.c 121-164): the entry of a name *)
  Fixpoint lookup (ss : strs) (n : list Z) (t : list entry) : option (option entry) :=
    match t with
    | [] => Some None
    | e :: r => if e_hash e =? H n then do k <- cell ss (e_key e); if beqb k n then Some (Some e) else lookup ss n r else lookup ss n r
    end.
  (* the slot of an entry becomes empty *)
  Definition drop_entry (e : entry) (t : list entry) : list entry := filter (fun x => negb (e_key x =? e_key e)%nat) t.
  (* ram_store.c:25-38 rf_close *)
  Definition rf_close (r : ram) (f : nat) : option ram :=
    do x <- cell (r_files r) f;
    if (0 <? rf_refs x)%nat then Some r
    else do ss <- free_cell (r_strs r) (rf_name x); do fs <- free_cell (r_files r) f; Some (mkRam ss fs (r_tab r) (r_open r)).
  Definition set_file (r : ram) (f : nat) (x : rfile) : ram := mkRam (r_strs r) (set_nth (r_files r) f (Some x)) (r_tab r) (r_open r).
  Definition with_tab (r : ram) (t : list entry) : ram := mkRam (r_strs r) (r_files r) t (r_open r).
  Definition with_open (r : ram) (o : list (option (nat * nat))) : ram := mkRam (r_strs r) (r_files r) (r_tab r) o.
  (* REF, DEREF *)
  Definition ref (r : ram) (f : nat) : option ram := do x <- cell (r_files r) f; Some (set_file r f (mkRf (rf_name x) (rf_data x) (S (rf_refs x)))).
  Definition deref (r : ram) (f : nat) : option ram := do x <- cell (r_files r) f; Some (set_file r f (mkRf (rf_name x) (rf_data x) (pred (rf_refs x)))).
  (* 5-15 rf_new, with its own copy of the name *)
  Definition rf_new (r : ram) (n : list Z) : ram * nat :=
    (mkRam (r_strs r ++ [Some n]) (r_files r ++ [Some (mkRf (length (r_strs r)) [] 1)]) (r_tab r) (r_open r), length (r_files r)).
  (* h_set (hash.c 363-387) for a key that holds n *)
  Definition h_set (r : ram) (n : list Z) (key f : nat) : option ram :=
    do x <- lookup (r_strs r) n (r_tab r);
    match x with
    | Some e => do r' <- (if (e_file e =? f)%nat then Some r else rf_close r (e_file e)); Some (with_tab r' (drop_entry e (r_tab r) ++ [mkE (H n) key f]))
    | None => Some (with_tab r (r_tab r ++ [mkE (H n) key f]))
    end.

  Inductive res := Done | Yes | No | Num (n : nat) | Stream (h : nat) | Data (d : list Z) | NotFound | IoError.
  (* 40-45 ram_touch: the key is the string that was passed, here a new one of the caller *)
  Definition ram_touch (r : ram) (n : list Z) : option (res * ram) :=
    let p := length (r_strs r) in
    let r := mkRam (r_strs r ++ [Some n]) (r_files r) (r_tab r) (r_open r) in
    do x <- lookup (r_strs r) n (r_tab r);
    match x with
    | Some _ => Some (Done, r)
    | None => let '(r, f) := rf_new r n in do r <- h_set r n p f; Some (Done, r)
    end.
  (* 47-55 *)
  Definition ram_exists (r : ram) (n : list Z) : option (res * ram) := do x <- lookup (r_strs r) n (r_tab r); Some (match x with Some _ => Yes | None => No end, r).
  (* 57-68 *)
  Definition ram_remove (r : ram) (n : list Z) : option (res * ram) :=
    do x <- lookup (r_strs r) n (r_tab r);
    match x with
    | Some e => do r <- deref (with_tab r (drop_entry e (r_tab r))) (e_file e); do r <- rf_close r (e_file e); Some (Yes, r)
    | None => Some (No, r)
    end.
  (* 70-94 *)
  Definition ram_rename (r : ram) (from to : list Z) : option (res * ram) :=
    do x <- lookup (r_strs r) from (r_tab r);
    match x with
    | None => Some (IoError, r)
    | Some e =>
        let r := with_tab r (drop_entry e (r_tab r)) in
        do f <- cell (r_files r) (e_file e);
        do ss <- free_cell (r_strs r) (rf_name f);
        let p := length ss in
        let r := set_file (mkRam (ss ++ [Some to]) (r_files r) (r_tab r) (r_open r)) (e_file e) (mkRf p (rf_data f) (rf_refs f)) in
        do y <- lookup (r_strs r) to (r_tab r);
        do r <- (match y with Some e2 => deref r (e_file e2) | None => Some r end);
        do r <- h_set r to p (e_file e);
        Some (Done, r)
    end.
  (* 96-99 *)
  Definition ram_count (r : ram) : option (res * ram) := Some (Num (length (r_tab r)), r).
  (* store.c:618-622 file_is_lock: ".lck" at the end of something *)
  Definition file_is_lock (n : list Z) : bool := (4 <? length n)%nat && beqb (str ".lck") (skipn (length n - 4) n).
  (* 132-173 ram_clear, ram_clear_locks, ram_clear_all: over the slots of the table; h_del (hash.c 260-275) *)
  Fixpoint clear_loop (which : list Z -> bool) (r : ram) (es : list entry) : option ram :=
    match es with
    | [] => Some r
    | e :: t =>
        do f <- cell (r_files r) (e_file e);
        do n <- cell (r_strs r) (rf_name f);
        if which n then
          do r <- deref r (e_file e);
          do x <- lookup (r_strs r) n (r_tab r);
          do r <- (match x with Some e' => do r' <- rf_close r (e_file e'); Some (with_tab r' (drop_entry e' (r_tab r))) | None => Some r end);
          clear_loop which r t
        else clear_loop which r t
    end.
  Definition ram_clear_if (which : list Z -> bool) (r : ram) : option (res * ram) := do r' <- clear_loop which r (r_tab r); Some (Done, r').
  (* 175-184 *)
  Definition ram_length (r : ram) (n : list Z) : option (res * ram) :=
    do x <- lookup (r_strs r) n (r_tab r);
    match x with Some e => do f <- cell (r_files r) (e_file e); Some (Num (length (rf_data f)), r) | None => Some (Num 0, r) end.
  Definition new_stream (r : ram) (f : nat) : res * ram := (Stream (length (r_open r)), with_open r (r_open r ++ [Some (f, 0%nat)])).
  (* 280-295 ram_new_output *)
  Definition ram_new_output (r : ram) (n : list Z) : option (res * ram) :=
    do x <- lookup (r_strs r) n (r_tab r);
    do rf <- (match x with
              | Some e => Some (r, e_file e)
              | None => let '(r, f) := rf_new r n in do y <- cell (r_files r) f; do r <- h_set r n (rf_name y) f; Some (r, f)
              end);
    do r <- ref (fst rf) (snd rf);
    Some (new_stream r (snd rf)).
  (* 354-381 ram_open_input *)
  Definition ram_open_input (r : ram) (n : list Z) : option (res * ram) :=
    do x <- lookup (r_strs r) n (r_tab r);
    match x with Some e => do r <- ref r (e_file e); Some (new_stream r (e_file e)) | None => Some (NotFound, r) end.
  (* a stream of the caller: undefined if it is closed *)
  Definition splice (d : list Z) (pos : nat) (b : list Z) : list Z := firstn pos d ++ b ++ skipn (pos + length b) d.
  Definition stream_write (r : ram) (h : nat) (b : list Z) : option (res * ram) :=
    do s <- cell (r_open r) h;
    do f <- cell (r_files r) (fst s);
    let r := set_file r (fst s) (mkRf (rf_name f) (splice (rf_data f) (snd s) b) (rf_refs f)) in
    Some (Done, with_open r (set_nth (r_open r) h (Some (fst s, (snd s + length b)%nat)))).
  Definition stream_read (r : ram) (h : nat) : option (res * ram) := do s <- cell (r_open r) h; do f <- cell (r_files r) (fst s); Some (Data (rf_data f), r).
  (* 244-249, 335-340 ramo_close_i, rami_close_i *)
  Definition stream_close (r : ram) (h : nat) : option (res * ram) :=
    do s <- cell (r_open r) h;
    do r <- deref r (fst s);
    do r <- rf_close r (fst s);
    Some (Done, with_open r (set_nth (r_open r) h None)).
  (* 116-130 ram_close_i *)
  Fixpoint each_entry (step : ram -> nat -> option ram) (r : ram) (es : list entry) : option ram :=
    match es with [] => Some r | e :: t => do r' <- step r (e_file e); each_entry step r' t end.
  Definition ram_close (r : ram) : option ram := do r1 <- each_entry deref r (r_tab r); do r2 <- each_entry rf_close r1 (r_tab r); Some (with_tab r2 []).
  (* 101-114 ram_each: the names handed over *)
  Definition prefixed (n : list Z) : bool := beqb (firstn 7 n) (str "ferret-").
  Fixpoint ram_each (r : ram) (es : list entry) : option (list (list Z)) :=
    match es with
    | [] => Some []
    | e :: t => do f <- cell (r_files r) (e_file e); do n <- cell (r_strs r) (rf_name f); do l <- ram_each r t; Some (if prefixed n then l else n :: l)
    end.

  (* what can be done with a store and its streams *)
  Inductive op := Touch (n : list Z) | Exists (n : list Z) | Remove (n : list Z) | Rename (a b : list Z) | Count | Clear | ClearLocks | ClearAll | Length (n : list Z)
  | Create (n : list Z) | Open (n : list Z) | Write (h : nat) (b : list Z) | Read (h : nat) | Close (h : nat).
  Definition step (r : ram) (o : op) : option (res * ram) :=
    match o with
    | Touch n => ram_touch r n
    | Exists n => ram_exists r n
    | Remove n => ram_remove r n
    | Rename a b => ram_rename r a b
    | Count => ram_count r
    | Clear => ram_clear_if (fun n => negb (file_is_lock n)) r
    | ClearLocks => ram_clear_if file_is_lock r
    | ClearAll => ram_clear_if (fun _ => true) r
    | Length n => ram_length r n
    | Create n => ram_new_output r n
    | Open n => ram_open_input r n
    | Write h b => stream_write r h b
    | Read h => stream_read r h
    | Close h => stream_close r h
    end.
  Fixpoint run (r : ram) (os : list op) : option (list res * ram) :=
    match os with [] => Some ([], r) | o :: t => do x <- step r o; do y <- run (snd x) t; Some (fst x :: fst y, snd y) end.
  (* 412-434 open_ram_store *)
  Definition new_ram : ram := mkRam [] [] [] [].
  (* 441-456 copy_files, 458-477 open_ram_store_and_copy *)
  Definition copy_file (from to : ram) (n : list Z) : option (ram * ram) :=
    do o <- ram_new_output to n;
    do i <- ram_open_input from n;
    match fst o, fst i with
    | Stream ho, Stream hi =>
        do d <- stream_read (snd i) hi;
        match fst d with
        | Data b => do w <- stream_write (snd o) ho b; do ci <- stream_close (snd d) hi; do co <- stream_close (snd w) ho; Some (snd ci, snd co)
        | _ => None
        end
    | _, _ => None
    end.
  Fixpoint copy_files (from to : ram) (ns : list (list Z)) : option (ram * ram) :=
    match ns with [] => Some (from, to) | n :: t => do x <- copy_file from to n; copy_files (fst x) (snd x) t end.
  Definition open_and_copy (from : ram) : option (ram * ram) := do ns <- ram_each from (r_tab from); copy_files from new_ram ns.
End HASH.
(* ruby/ext/r_store.c:220-226 frb_dir_delete: remove(...) == 0 *)
Definition frb_dir_delete (H : list Z -> Z) (r : ram) (n : list Z) : option (bool * ram) := do x <- ram_remove H r n; Some (match fst x with Yes => false | _ => true end, snd x).
(* the caller of touch frees the string that it passed, or writes something else there (Ruby collects or changes the String) *)
Definition caller_frees (r : ram) (p : nat) : ram := mkRam (set_nth (r_strs r) p None) (r_files r) (r_tab r) (r_open r).
Definition caller_writes (r : ram) (p : nat) (m : list Z) : ram := mkRam (set_nth (r_strs r) p (Some m)) (r_files r) (r_tab r) (r_open r).
