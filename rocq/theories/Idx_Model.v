(* The Ruby class Ferret::Index::Index (ruby/lib/ferret/index.rb): one object keeps at most one of a writer and a reader, and
   a searcher over the reader, and opens and closes them as its methods need them.  Several objects, of one process or of many,
   may stand on one directory.

   What is below the class is taken at the level other areas of this development give it: a commit is a numbered list of
   documents with holes where documents were deleted (Seg, Merge, Commit), the writer adds and deletes documents of that list
   and may renumber it by merging (Iw, Merge), the write lock is one flag of the directory (Lock), a search gives the numbers
   of the documents a query matches in some order (Look, Page).  Each method runs under @dir.synchronize and is one step. *)
From Coq Require Import List ZArith Bool Arith.
From Verif Require Import Util.
Import ListNotations.

(* a document as the index sees it: per field the string doc[field].to_s gives and the terms indexing it gives *)
Definition term := list Z.
Definition doc := list (nat * (term * list term)).
Fixpoint field (f : nat) (d : doc) : option (term * list term) :=
  match d with
  | [] => None
  | (g, x) :: d' => if f =? g then Some x else field f d'
  end.
(* doc[f].to_s: nil.to_s is the empty string *)
Definition val (f : nat) (d : doc) : term := match field f d with Some (v, _) => v | None => [] end.
Definition toks (f : nat) (d : doc) : list term := match field f d with Some (_, ts) => ts | None => [] end.
Fixpoint term_eqb (a b : term) : bool :=
  match a, b with
  | [], [] => true
  | x :: a', y :: b' => (x =? y)%Z && term_eqb a' b'
  | _, _ => false
  end.
Definition has_term (f : nat) (t : term) (d : doc) : bool := existsb (term_eqb t) (toks f d).

(* a numbered document: the flag says that it has not been deleted *)
Definition cell := (doc * bool)%type.
Definition kill_where (p : doc -> bool) (l : list cell) : list cell :=
  map (fun c => (fst c, snd c && negb (p (fst c)))) l.
Fixpoint kill_at (n : nat) (l : list cell) : list cell :=
  match l, n with
  | [], _ => []
  | c :: l', O => (fst c, false) :: l'
  | c :: l', S n' => c :: kill_at n' l'
  end.

(* the directory: the newest commit, its version and number of segments, and who holds the write lock *)
Record dir := mkDir { d_cells : list cell; d_ver : nat; d_segs : nat; d_lock : option nat }.

(* an IndexReader: the commit it was opened on with the deletions made through it; rd_lock: ir->write_lock is not NULL;
   rd_dirty: ir->has_changes *)
Record reader := mkRd { rd_id : nat; rd_cells : list cell; rd_ver : nat; rd_segs : nat; rd_lock : bool; rd_dirty : bool }.
(* an IndexWriter: the documents it stands for; wr_dirty: some are not committed yet *)
Record writer := mkWr { wr_cells : list cell; wr_segs : nat; wr_dirty : bool }.
(* a Searcher over the reader sc_reader; sc_open: close has not been called (after it DATA_PTR is NULL) *)
Record searcher := mkSc { sc_reader : nat; sc_open : bool }.

(* the instance variables @open, @writer, @reader and @searcher; o_next numbers the readers made *)
Record index := mkIdx { o_open : bool; o_wr : option writer; o_rd : option reader; o_sc : option searcher; o_next : nat }.

(* the options :auto_flush, :id_field and :key (none, a field, an array of fields) *)
Inductive keys := NoKey | OneKey (f : nat) | Keys (fs : list nat).
Record options := mkOpt { auto_flush : bool; id_field : nat; key : keys }.

(* what the writer decides for itself: whether adding a document writes a segment, which holes merging squeezes out, how
   many segments there are then; and the order in which a search lists what it found *)
Record policy := mkPol {
  p_flush : list cell -> bool;
  p_merge : list cell -> list cell;
  p_segs : list cell -> nat;
  p_rank : list (nat * doc) -> list (nat * doc) }.

Inductive err :=
  | Closed            (* RuntimeError: tried to use a closed index *)
  | LockError         (* Lock::LockError *)
  | StateError        (* reader out of date; document already deleted *)
  | NoMethod          (* NoMethodError: a method of nil *)
  | NoDoc             (* no document of that number *)
  | Crash.            (* a NULL pointer is followed *)
Inductive res (A : Type) := Ok (a : A) | Raise (e : err).
Arguments Ok {A}. Arguments Raise {A}.

Record st := mkSt { obj : index; dr : dir }.
Definition M (A : Type) := st -> res A * st.
Definition ret {A} (a : A) : M A := fun s => (Ok a, s).
Definition raise {A} (e : err) : M A := fun s => (Raise e, s).
Definition bind {A B} (m : M A) (k : A -> M B) : M B :=
  fun s => match m s with (Ok a, s') => k a s' | (Raise e, s') => (Raise e, s') end.
Notation "'let*' x := m 'in' k" := (bind m (fun x => k)) (at level 200, x pattern, m at level 100, k at level 200).
Notation "m ;; k" := (bind m (fun _ => k)) (at level 100, right associativity).

Definition get : M st := fun s => (Ok s, s).
Definition set_wr (w : option writer) : M unit :=
  fun s => let o := obj s in (Ok tt, mkSt (mkIdx (o_open o) w (o_rd o) (o_sc o) (o_next o)) (dr s)).
Definition set_rd (r : option reader) : M unit :=
  fun s => let o := obj s in (Ok tt, mkSt (mkIdx (o_open o) (o_wr o) r (o_sc o) (o_next o)) (dr s)).
Definition set_sc (c : option searcher) : M unit :=
  fun s => let o := obj s in (Ok tt, mkSt (mkIdx (o_open o) (o_wr o) (o_rd o) c (o_next o)) (dr s)).
Definition set_dir (d : dir) : M unit := fun s => (Ok tt, mkSt (obj s) d).
Definition when (b : bool) (m : M unit) : M unit := if b then m else ret tt.

Section Object.
  Variable pol : policy.
  Variable opt : options.
  Variable me : nat.   (* which of the objects on the directory this is *)

  (* the IndexReader ---------------------------------------------------------------------------------------------------- *)

  (* index.c:5116-5166 ir_open (ruby/ext/r_index.c:2095-2162 frb_ir_init) *)
  Definition open_reader : M unit :=
    fun s => let o := obj s in let d := dr s in
      (Ok tt, mkSt (mkIdx (o_open o) (o_wr o) (Some (mkRd (o_next o) (d_cells d) (d_ver d) (d_segs d) false false)) (o_sc o)
                          (S (o_next o))) d).

  (* index.c:4392-4395 sr_is_latest_i, 4926-4936 mr_is_latest_i: with no segment there is nothing to ask *)
  Definition latest (r : reader) (d : dir) : bool := (rd_segs r =? 0) || (d_ver d =? rd_ver r).

  (* index.c:4100-4135 ir_commit_i; the lock goes when there is one *)
  Definition rd_commit (r : reader) (d : dir) : reader * dir :=
    if rd_dirty r
    then (mkRd (rd_id r) (rd_cells r) (S (d_ver d)) (rd_segs r) false false,
          mkDir (rd_cells r) (S (d_ver d)) (rd_segs r) (if rd_lock r then None else d_lock d))
    else (r, d).

  (* r_index.c:2245-2252 frb_ir_commit on @reader *)
  Definition reader_commit : M unit :=
    let* s := get in
    match o_rd (obj s) with
    | None => raise NoMethod
    | Some r => let (r', d') := rd_commit r (dr s) in set_dir d' ;; set_rd (Some r')
    end.
  (* r_index.c:2263-2271 frb_ir_close on @reader (index.c:4144-4175 ir_close commits first); @reader still holds it *)
  Definition reader_close : M unit :=
    let* s := get in
    match o_rd (obj s) with
    | None => raise NoMethod
    | Some r => set_dir (snd (rd_commit r (dr s)))
    end.

  (* index.c:4021-4030 ir_delete_doc with 3882-3919 ir_acquire_write_lock.  A number out of range is passed over.  After a
     LockError the reader keeps a lock object (C30); nothing is said about what an object does after an error *)
  Definition reader_delete (n : nat) : M unit :=
    let* s := get in
    match o_rd (obj s) with
    | None => raise NoMethod
    | Some r =>
        if n <? length (rd_cells r) then
          let d := dr s in
          let r' := mkRd (rd_id r) (kill_at n (rd_cells r)) (rd_ver r) (rd_segs r) true true in
          if rd_lock r then set_rd (Some r')
          else match d_lock d with
               | Some _ => raise LockError
               | None => if rd_ver r <? d_ver d then raise StateError
                         else set_dir (mkDir (d_cells d) (d_ver d) (d_segs d) (Some me)) ;; set_rd (Some r')
               end
        else ret tt
    end.
  Fixpoint reader_deletes (ns : list nat) : M unit :=
    match ns with
    | [] => ret tt
    | n :: ns' => reader_delete n ;; reader_deletes ns'
    end.

  (* the Searcher --------------------------------------------------------------------------------------------------------- *)

  (* r_search.c:2511-2518 frb_sea_close: a second close follows DATA_PTR, which is NULL; `if @searcher` is the caller's test *)
  Definition searcher_close : M unit :=
    let* s := get in
    match o_sc (obj s) with
    | None => ret tt
    | Some c => if sc_open c then set_sc (Some (mkSc (sc_reader c) false)) else raise Crash
    end.
  (* the reader a method of @searcher works on.  A closed searcher has no pointer, an open one over a closed reader has a
     pointer to what was freed *)
  Definition searcher_reader : M reader :=
    let* s := get in
    match o_sc (obj s), o_rd (obj s) with
    | None, _ => raise NoMethod
    | Some c, Some r => if sc_open c && (sc_reader c =? rd_id r) then ret r else raise Crash
    | Some _, None => raise Crash
    end.

  (* the numbers and documents a query matches: what a reader's cells hold and no deletion took out *)
  Fixpoint found (n : nat) (q : doc -> bool) (l : list cell) : list (nat * doc) :=
    match l with
    | [] => []
    | c :: l' => if snd c && q (fst c) then (n, fst c) :: found (S n) q l' else found (S n) q l'
    end.
  Definition hits (q : doc -> bool) (l : list cell) : list (nat * doc) := p_rank pol (found 0 q l).

  (* the IndexWriter ------------------------------------------------------------------------------------------------------- *)

  (* index.c:6466-6553 iw_open: the lock first, then the newest commit *)
  Definition open_writer : M unit :=
    let* s := get in
    let d := dr s in
    match d_lock d with
    | Some _ => raise LockError
    | None => set_dir (mkDir (d_cells d) (d_ver d) (d_segs d) (Some me)) ;;
              set_wr (Some (mkWr (d_cells d) (d_segs d) false))
    end.

  (* a commit of the writer: merging renumbers, the version goes up *)
  Definition publish (cells : list cell) : M unit :=
    let* s := get in
    let cells' := p_merge pol cells in
    set_dir (mkDir cells' (S (d_ver (dr s))) (p_segs pol cells') (d_lock (dr s))) ;;
    set_wr (Some (mkWr cells' (p_segs pol cells') false)).
  (* index.c:6351-6364 iw_commit_i, iw_commit *)
  Definition writer_commit : M unit :=
    let* s := get in
    match o_wr (obj s) with
    | None => raise NoMethod
    | Some w => when (wr_dirty w) (publish (wr_cells w))
    end.
  (* index.c:6462-6482 iw_close on @writer; the caller sets @writer to nil *)
  Definition writer_close : M unit :=
    writer_commit ;;
    let* s := get in
    set_dir (mkDir (d_cells (dr s)) (d_ver (dr s)) (d_segs (dr s)) None).
  (* index.c:6312-6337 iw_add_doc *)
  Definition writer_add (x : doc) : M unit :=
    let* s := get in
    match o_wr (obj s) with
    | None => raise NoMethod
    | Some w =>
        let cells := wr_cells w ++ [(x, true)] in
        if p_flush pol cells then publish cells else set_wr (Some (mkWr cells (wr_segs w) true))
    end.
  Fixpoint writer_adds (xs : list doc) : M unit :=
    match xs with
    | [] => ret tt
    | x :: xs' => writer_add x ;; writer_adds xs'
    end.
  (* index.c:6366-6442 iw_delete_term, iw_delete_terms: a commit, then deletions written at once without merging.
     Simplified: a field no document ever had makes the C functions return before the commit *)
  Definition writer_delete (f : nat) (ts : list term) : M unit :=
    writer_commit ;;
    let* s := get in
    match o_wr (obj s) with
    | None => raise NoMethod
    | Some w =>
        let p := fun x => existsb (fun t => has_term f t x) ts in
        if existsb (fun c => snd c && p (fst c)) (wr_cells w) then
          let cells := kill_where p (wr_cells w) in
          set_dir (mkDir cells (S (d_ver (dr s))) (d_segs (dr s)) (d_lock (dr s))) ;;
          set_wr (Some (mkWr cells (wr_segs w) false))
        else ret tt
    end.
  (* index.c:6443-6460 iw_optimize_i, iw_optimize *)
  Definition writer_optimize : M unit :=
    writer_commit ;;
    let* s := get in
    match o_wr (obj s) with
    | None => raise NoMethod
    | Some w =>
        if (1 <? wr_segs w) || existsb (fun c => negb (snd c)) (wr_cells w) then
          let cells := filter snd (wr_cells w) in
          set_dir (mkDir cells (S (d_ver (dr s))) 1 (d_lock (dr s))) ;;
          set_wr (Some (mkWr cells 1 false))
        else ret tt
    end.
  (* index.c:6796-6894 iw_add_readers: optimises, takes over the documents of the readers and commits; others are the cells of
     those readers *)
  Definition writer_add_readers (others : list (list cell)) : M unit :=
    writer_optimize ;;
    let* s := get in
    match o_wr (obj s) with
    | None => raise NoMethod
    | Some w =>
        let cells := wr_cells w ++ filter snd (concat others) in
        set_dir (mkDir cells (S (d_ver (dr s))) 1 (d_lock (dr s))) ;;
        set_wr (Some (mkWr cells 1 false))
    end.

  (* the methods ------------------------------------------------------------------------------------------------------------ *)

  (* index.rb:843-854 ensure_writer_open *)
  Definition ensure_writer_open : M unit :=
    let* s := get in
    if negb (o_open (obj s)) then raise Closed
    else match o_wr (obj s) with
         | Some _ => ret tt
         | None =>
             match o_rd (obj s) with
             | Some _ => searcher_close ;; reader_close ;; set_rd None ;; set_sc None
             | None => ret tt
             end ;;
             open_writer
         end.

  (* index.rb:857-883 ensure_reader_open: the value says whether a new reader was opened.  Simplified: latest? meets no
     LockError *)
  Definition ensure_reader_open (get_latest : bool) : M bool :=
    let* s := get in
    if negb (o_open (obj s)) then raise Closed
    else match o_rd (obj s) with
         | Some r =>
             if get_latest && negb (latest r (dr s))
             then searcher_close ;; reader_close ;; open_reader ;; ret true
             else ret false
         | None =>
             match o_wr (obj s) with
             | Some _ => writer_close ;; set_wr None
             | None => ret tt
             end ;;
             open_reader ;; ret true
         end.

  (* index.rb:885-890 ensure_searcher_open *)
  Definition ensure_searcher_open : M unit :=
    let* s0 := get in
    if negb (o_open (obj s0)) then raise Closed
    else
      let* fresh := ensure_reader_open true in
      let* s := get in
      match o_sc (obj s), o_rd (obj s) with
      | Some _, Some r => if fresh then set_sc (Some (mkSc (rd_id r) true)) else ret tt
      | None, Some r => set_sc (Some (mkSc (rd_id r) true))
      | _, None => raise NoMethod
      end.

  (* index.rb:710-723 flush *)
  Definition flush : M unit :=
    let* s := get in
    match o_rd (obj s), o_wr (obj s) with
    | Some _, _ => searcher_close ;; set_sc None ;; reader_commit
    | None, Some _ => writer_close ;; set_wr None
    | None, None => ret tt
    end.
  Definition auto : M unit := when (auto_flush opt) flush.

  (* index.rb:547-557 query_delete *)
  Definition query_delete (q : doc -> bool) : M unit :=
    ensure_writer_open ;;
    ensure_searcher_open ;;
    let* r := searcher_reader in
    reader_deletes (map fst (hits q (rd_cells r))) ;;
    auto.

  (* index.rb:285-320 add_document.  Left out: the analyzer passed along *)
  Definition add_document (x : doc) : M unit :=
    ensure_writer_open ;;
    match key opt with
    | NoKey => ret tt
    | OneKey f => writer_delete f [val f x]
    | Keys fs => query_delete (fun y => forallb (fun f => has_term f (val f x) y) fs)
    end ;;
    ensure_writer_open ;;
    writer_add x ;;
    auto.

  (* index.rb:941-965 batch_delete *)
  Definition numbers (ids : list (nat + term)) : list nat :=
    flat_map (fun i => match i with inl n => [n] | inr _ => [] end) ids.
  Definition names (ids : list (nat + term)) : list term :=
    flat_map (fun i => match i with inl _ => [] | inr t => [t] end) ids.
  Definition batch_delete (ids : list (nat + term)) : M unit :=
    match numbers ids with
    | [] => ret tt
    | ns => ensure_reader_open true ;; reader_deletes ns
    end ;;
    match names ids with
    | [] => ret tt
    | ts => ensure_writer_open ;; writer_delete (id_field opt) ts
    end.

  (* index.rb:523-540 delete, of a String, of an Integer, of an Array *)
  Definition delete (i : nat + term) : M unit :=
    match i with
    | inr t => ensure_writer_open ;; writer_delete (id_field opt) [t]
    | inl n => ensure_reader_open true ;; reader_delete n
    end ;;
    auto.
  Definition delete_batch (ids : list (nat + term)) : M unit := batch_delete ids ;; auto.

  (* index.rb:575-587 update *)
  Definition update (i : nat + term) (x : doc) : M unit :=
    ensure_writer_open ;;
    delete i ;;
    match i with
    | inr _ => writer_commit
    | inl _ => ensure_writer_open
    end ;;
    writer_add x ;;
    auto.

  (* index.rb:625-648 batch_update of an Array.  to_s is never nil, so nothing is raised *)
  Definition batch_update (xs : list doc) : M unit :=
    batch_delete (map (fun x => inr (val (id_field opt) x)) xs) ;;
    ensure_writer_open ;;
    writer_adds xs ;;
    flush.

  (* index.rb:675-693 query_update; change is what merge! or the assignment makes of a stored document *)
  Definition query_update (q : doc -> bool) (change : doc -> doc) : M unit :=
    ensure_writer_open ;;
    ensure_searcher_open ;;
    let* r := searcher_reader in
    let hs := hits q (rd_cells r) in
    reader_deletes (map fst hs) ;;
    ensure_writer_open ;;
    writer_adds (map (fun h => change (snd h)) hs) ;;
    auto.

  (* index.rb:728-735 optimize *)
  Definition optimize : M unit :=
    ensure_writer_open ;; writer_optimize ;; writer_close ;; set_wr None.

  (* index.rb:756-776 add_indexes of other directories *)
  Definition add_indexes (others : list (list cell)) : M unit :=
    ensure_writer_open ;; writer_add_readers others.
  (* index.rb:832-837 field_infos *)
  Definition field_infos : M unit := ensure_writer_open.

  (* r_index.c frb_ir_get_doc, index.c:4537-4546 sr_get_doc on @reader *)
  Definition reader_get (n : nat) : M doc :=
    let* s := get in
    match o_rd (obj s) with
    | None => raise NoMethod
    | Some r => match nth_error (rd_cells r) n with
                | Some (x, true) => ret x
                | Some (_, false) => raise StateError
                | None => raise NoDoc
                end
    end.
  Definition the_reader : M reader :=
    let* s := get in match o_rd (obj s) with None => raise NoMethod | Some r => ret r end.

  (* index.rb:738-743 size *)
  Definition size : M nat :=
    ensure_reader_open true ;;
    let* r := the_reader in ret (length (filter snd (rd_cells r))).
  (* index.rb:331-335 search, 384-393 search_each, 431-438 scan, 905-910 do_search: the numbers of the hits and what is there *)
  Definition search (q : doc -> bool) : M (list (nat * doc)) :=
    ensure_searcher_open ;;
    let* r := searcher_reader in ret (hits q (rd_cells r)).
  (* index.rb:491-498 each *)
  Definition each : M (list doc) :=
    ensure_reader_open true ;;
    let* r := the_reader in ret (map fst (filter snd (rd_cells r))).
  (* index.rb:452-464 doc of a String, of an Integer *)
  Definition doc_of (t : term) : M (option doc) :=
    ensure_reader_open true ;;
    let* r := the_reader in
    ret (match found 0 (has_term (id_field opt) t) (rd_cells r) with [] => None | h :: _ => Some (snd h) end).
  Definition doc_at (n : nat) : M doc := ensure_reader_open false ;; reader_get n.
  (* index.rb:560-565 deleted? *)
  Definition deleted (n : nat) : M bool :=
    ensure_reader_open true ;;
    let* r := the_reader in
    match nth_error (rd_cells r) n with
    | Some c => ret (negb (snd c))
    | None => ret false
    end.
  (* index.rb:697-702 has_deletions? *)
  Definition has_deletions : M bool :=
    ensure_reader_open true ;;
    let* r := the_reader in ret (existsb (fun c => negb (snd c)) (rd_cells r)).
  (* index.rb:804-810 to_s *)
  Fixpoint to_s_from (i n : nat) : M (list doc) :=
    match n with
    | O => ret []
    | S n' =>
        let* gone := deleted i in
        if gone then to_s_from (S i) n'
        else let* x := doc_at i in let* xs := to_s_from (S i) n' in ret (x :: xs)
    end.
  Definition to_s : M (list doc) := let* n := size in to_s_from 0 n.

  (* index.rb:203-216 close.  Simplified: the variables are not looked at again, so they are cleared *)
  Definition close : M unit :=
    let* s := get in
    if negb (o_open (obj s)) then raise Closed
    else
      searcher_close ;;
      match o_rd (obj s) with Some _ => reader_close | None => ret tt end ;;
      match o_wr (obj s) with Some _ => writer_close | None => ret tt end ;;
      fun s' => (Ok tt, mkSt (mkIdx false None None None (o_next (obj s'))) (dr s')).

  (* one call *)
  Inductive call :=
    | Add (x : doc) | Delete (i : nat + term) | DeleteBatch (ids : list (nat + term)) | QueryDelete (q : doc -> bool)
    | Update (i : nat + term) (x : doc) | BatchUpdate (xs : list doc) | QueryUpdate (q : doc -> bool) (change : doc -> doc)
    | Flush | Optimize | AddIndexes (others : list (list cell)) | FieldInfos
    | Size | Search (q : doc -> bool) | Each | DocOf (t : term) | DocAt (n : nat) | Deleted (n : nat) | HasDeletions | ToS.
  Inductive value :=
    | Unit | Nat (n : nat) | Bool (b : bool) | Docs (l : list doc) | Hits (l : list (nat * doc)) | Doc (x : option doc).
  Definition give {A} (f : A -> value) (m : M A) : M value := let* a := m in ret (f a).
  Definition run (c : call) : M value :=
    match c with
    | Add x => give (fun _ => Unit) (add_document x)
    | Delete i => give (fun _ => Unit) (delete i)
    | DeleteBatch ids => give (fun _ => Unit) (delete_batch ids)
    | QueryDelete q => give (fun _ => Unit) (query_delete q)
    | Update i x => give (fun _ => Unit) (update i x)
    | BatchUpdate xs => give (fun _ => Unit) (batch_update xs)
    | QueryUpdate q change => give (fun _ => Unit) (query_update q change)
    | Flush => give (fun _ => Unit) flush
    | Optimize => give (fun _ => Unit) optimize
    | AddIndexes others => give (fun _ => Unit) (add_indexes others)
    | FieldInfos => give (fun _ => Unit) field_infos
    | Size => give Nat size
    | Search q => give Hits (search q)
    | Each => give Docs each
    | DocOf t => give Doc (doc_of t)
    | DocAt n => give (fun x => Doc (Some x)) (doc_at n)
    | Deleted n => give Bool (deleted n)
    | HasDeletions => give Bool has_deletions
    | ToS => give Docs to_s
    end.

  (* a history of one object: the values of its calls; it ends at the first error *)
  Fixpoint runs (cs : list call) (s : st) : list (res value) * st :=
    match cs with
    | [] => ([], s)
    | c :: cs' =>
        match run c s with
        | (Ok v, s') => let (vs, s'') := runs cs' s' in (Ok v :: vs, s'')
        | (Raise e, s') => ([Raise e], s')
        end
    end.
End Object.

(* several objects on one directory: calls of objects in some order.  world: the objects by number *)
Record world := mkWorld { w_objs : list index; w_dir : dir }.
Fixpoint put {A} (n : nat) (x : A) (l : list A) : list A :=
  match l, n with
  | [], _ => []
  | _ :: l', O => x :: l'
  | y :: l', S n' => y :: put n' x l'
  end.
Fixpoint share (pol : policy) (opts : nat -> options) (cs : list (nat * call)) (w : world) : list (nat * res value) * world :=
  match cs with
  | [] => ([], w)
  | (i, c) :: cs' =>
      match nth_error (w_objs w) i with
      | None => share pol opts cs' w
      | Some o =>
          match run pol (opts i) i c (mkSt o (w_dir w)) with
          | (Ok v, s) => let (vs, w') := share pol opts cs' (mkWorld (put i (obj s) (w_objs w)) (dr s)) in ((i, Ok v) :: vs, w')
          | (Raise e, s) => ([(i, Raise e)], mkWorld (put i (obj s) (w_objs w)) (dr s))
          end
      end
  end.

(* index.rb:90-160 initialize, once it is done: nothing is open *)
Definition fresh : index := mkIdx true None None None 0.
