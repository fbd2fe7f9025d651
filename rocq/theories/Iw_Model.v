(* Model of the IndexWriter, c/src/index.c 6165-6527: adding documents, deleting by terms, committing, merging by size, optimizing and
   opening again, on the files of the segments.  The documents are inverted by Invert_Model, segments are merged by Merge_Model.
   A segment is in the list when it is written (sis_new_segment puts it there at the first document, but nothing reads it before).
   What the files segments and fields hold comes back when the index is opened (C13, C14); .del files hold their bit vectors (C10).
   Whether the memory pool is full is given with the document.  None: an exception, undefined behaviour, or a loop that does not end. *)
From Verif Require Import Util Codec_Model Strcmp Seg_Model Dict_Model Token_Model Post_Model Merge_Model Fields_Model Invert_Model.
Open Scope Z_scope.

(* a segment: terms, postings and deletions as the merger opens them, stored fields, norms by the number of the field, use_compound_file,
   si_has_separate_norms *)
Record wseg := mkWs { w_in : min_; w_fdt : list Z; w_fdx : list Z; w_norms : list (nat * list Z); w_cfs : bool; w_sep : bool }.
Definition doc_cnt (x : wseg) : Z := Z.of_nat (i_max (w_in x)).
Definition norm_file (n : nat) (x : wseg) : option (list Z) := match find (fun p : nat * list Z => (fst p =? n)%nat) (w_norms x) with Some p => Some (snd p) | None => None end.
(* Config (index.h 19-32) but max_buffered_docs, which can be set while the writer is open *)
Record config := mkCfg { c_interval : nat; c_skip : nat; c_factor : Z; c_merge_docs : Z; c_compound : bool; c_field_length : Z }.
(* iw->fis, iw->sis, iw->config.max_buffered_docs, and iw->dw with its own max_buffered_docs *)
Record iw := mkIw { y_fis : field_infos; y_segs : list wseg; y_mbd : nat; y_dw : option (nat * dw) }.
(* iw_open 6484-6522 *)
Definition iw_open (fis : field_infos) (segs : list wseg) (mbd : nat) : iw := mkIw fis segs mbd None.

Section IW.
  Variable ana : list Z -> list Z -> list token.
  Variable norm : field_info -> Z -> dfield -> Z -> Z.
  Variable zip : list Z -> list Z.
  Variable fuel : nat.
  Variable cfg : config.
  Variable buf0 : list Z.   (* the memory the merger gets for its term buffer *)

  (* 6101-6151 sm_merge_norms: for every field that has norms *)
  Fixpoint merge_norm_files (n : nat) (fs : list field_info) (xs : list wseg) : option (list (nat * list Z)) :=
    match fs with
    | [] => Some []
    | f :: fs' =>
        do r <- merge_norm_files (S n) fs' xs;
        if fi_has_norms f then do b <- sm_merge_norms (map (fun x => (norm_file n x, i_max (w_in x), i_del (w_in x))) xs); Some ((n, b) :: r) else Some r
    end.
  (* 6239-6271 iw_merge_segments, 6153-6159 sm_merge, from segment number m to the end *)
  Definition iw_merge_from (m : nat) (s : iw) : option iw :=
    let a := firstn m (y_segs s) in
    let b := skipn m (y_segs s) in
    do ff <- sm_merge_fields (map (fun x => (w_fdt x, w_fdx x, i_del (w_in x))) b) [] [];
    do g <- sm_merge_terms (c_interval cfg) (Z.of_nat (c_skip cfg)) buf0 (length (fis_fields (y_fis s))) (map w_in b);
    do ns <- merge_norm_files O (fis_fields (y_fis s)) b;
    do sf <- sfi_open (g_dict g);
    let cnt := fold_right (fun m z => m_cnt m + z) 0 (sm_create 0 (map w_in b)) in
    Some (mkIw (y_fis s) (a ++ [mkWs (mkMin g sf (Z.to_nat cnt) None) (fst ff) (snd ff) ns (c_compound cfg) false]) (y_mbd s) (y_dw s)).

  (* 6288-6298: the segments at the end that are smaller than the target: how many they are, how many documents they have; from the last one on *)
  Fixpoint small_segs (target : Z) (l : list wseg) : nat * Z :=
    match l with [] => (O, 0) | x :: t => if target <=? doc_cnt x then (O, 0) else let r := small_segs target t in (S (fst r), doc_cnt x + snd r) end.
  (* 6278-6309 iw_maybe_merge_segments; min_segment is size - 1 - the number of small segments *)
  Fixpoint maybe_merge (n : nat) (target : Z) (s : iw) : option iw :=
    match n with
    | O => None
    | S n' =>
        if (0 <? target) && (target <=? c_merge_docs cfg) then
          let size := length (y_segs s) in
          let r := small_segs target (rev (y_segs s)) in
          let next s' := if 2 ^ 31 <=? target * c_factor cfg then None else maybe_merge n' (target * c_factor cfg) s' in
          if target <=? snd r then do s' <- iw_merge_from (size - fst r) s; next s'
          else if (size <=? S (fst r))%nat then Some s else next s
        else Some s
    end.
  (* the target doubles at least, if the factor is 2 or more *)
  Definition iw_maybe_merge (s : iw) : option iw := maybe_merge 33 (c_factor cfg) s.

  (* 6311-6334 iw_flush_ram_segment, dw_flush *)
  Definition iw_flush (s : iw) : option iw :=
    match y_dw s with
    | None => None
    | Some (cap, w) =>
        do r <- dw_write (Z.of_nat (c_interval cfg)) (Z.of_nat (c_skip cfg)) w;
        do sf <- sfi_open (g_dict (fst r));
        let x := mkWs (mkMin (fst r) sf (x_doc w) None) (fw_fdt (x_fw w)) (fw_fdx (x_fw w)) (snd r) (c_compound cfg) false in
        iw_maybe_merge (mkIw (y_fis s) (y_segs s ++ [x]) (y_mbd s) (Some (cap, mkDw fw_open (y_fis s) [] O (x_offs w))))
    end.
  (* 6353-6358 iw_commit_i *)
  Definition iw_commit (s : iw) : option iw :=
    match y_dw s with Some (_, w) => if (0 <? x_doc w)%nat then iw_flush s else Some s | None => Some s end.
  (* 6336-6351 iw_add_doc: dw_open or dw_new_segment; full: mp_used(dw->mp) > max_buffer_memory *)
  Definition iw_add_doc (d : document) (full : bool) (s : iw) : option iw :=
    let '(cap, w) := match y_dw s with Some x => x | None => (y_mbd s, dw_open (y_fis s)) end in
    do w' <- dw_add_doc ana norm zip fuel (c_field_length cfg) cap w d;
    let s' := mkIw (x_fis w') (y_segs s) (y_mbd s) (Some (cap, w')) in
    if full || (y_mbd s <=? x_doc w')%nat then iw_flush s' else Some s'.

  (* 6378-6386, 6416-6426: the documents of a term are deleted while they are enumerated; they rise, there are no more than max_doc.  The enumerator looks at the bit vector the reader
     had when it was made, if it had one; new is what was deleted since *)
  Definition mem (l : list Z) (d : Z) : bool := existsb (Z.eqb d) l.
  Definition seen (old : option (Z -> bool)) (new : list Z) (d : Z) : bool := match old with Some f => f d || mem new d | None => false end.
  Fixpoint delete_loop (n : nat) (old : option (Z -> bool)) (new : list Z) (e : tde) : option (list Z * tde) :=
    match n with
    | O => None
    | S n' => do r <- tde_next false (seen old new) e;
              if fst r then delete_loop n' old (new ++ [p_doc (snd r)]) (snd r) else Some (new, snd r)
    end.
  Fixpoint delete_terms (x : min_) (f : Z) (ts : list (list Z)) (new : list Z) (t : tir) (e : tde) : option (list Z) :=
    match ts with
    | [] => Some new
    | term :: ts' =>
        let g := i_seg x in
        do r <- tir_get_ti_field (g_dict g) (i_sfi x) t O f term;
        let e1 := tde_seek false (g_frq g) (g_prx g) (s_skip (i_sfi x)) e (fst r) in
        do z <- delete_loop (S (i_max x)) (i_del x) new e1;
        delete_terms x f ts' (fst z) (snd r) (snd z)
    end.
  (* sr_commit_i: a new .del file if something was deleted *)
  Definition delete_seg (f : Z) (ts : list (list Z)) (s : wseg) : option wseg :=
    let x := w_in s in
    do new <- delete_terms x f ts [] tir_open (tde_new (g_frq (i_seg x)) (g_prx (i_seg x)));
    Some (mkWs (mkMin (i_seg x) (i_sfi x) (i_max x) (match new with [] => i_del x | _ => Some (fun d => dels x d || mem new d) end))
               (w_fdt s) (w_fdx s) (w_norms s) (w_cfs s) (w_sep s)).
  Fixpoint delete_segs (f : Z) (ts : list (list Z)) (l : list wseg) : option (list wseg) :=
    match l with [] => Some [] | x :: t => do y <- delete_seg f ts x; do r <- delete_segs f ts t; Some (y :: r) end.
  (* 6367-6394 iw_delete_term, 6396-6435 iw_delete_terms: nothing happens if the field is not known *)
  Definition iw_delete (field : list Z) (ts : list (list Z)) (s : iw) : option iw :=
    match fis_get (y_fis s) field with
    | None => Some s
    | Some (n, _) => do s1 <- iw_commit s; do l <- delete_segs (Z.of_nat n) ts (y_segs s1); Some (mkIw (y_fis s1) l (y_mbd s1) (y_dw s1))
    end.

  (* 6437-6453 iw_optimize_i; all segments are in iw->store *)
  Definition unclean (x : wseg) : bool := match i_del (w_in x) with Some _ => true | None => false end || (c_compound cfg && (negb (w_cfs x) || w_sep x)).
  Fixpoint optimize_loop (n : nat) (s : iw) : option iw :=
    match n with
    | O => None
    | S n' =>
        let size := length (y_segs s) in
        if (1 <? size)%nat || match y_segs s with [x] => unclean x | _ => false end then
          let m := Z.of_nat size - c_factor cfg in
          if Z.of_nat size <? m then None
          else do s' <- iw_merge_from (Z.to_nat m) s; optimize_loop n' s'
        else Some s
    end.
  (* every round takes a segment away, if the factor is 2 or more *)
  Definition iw_optimize (s : iw) : option iw := do s1 <- iw_commit s; optimize_loop (S (length (y_segs s1))) s1.

  Inductive wop := WAdd (d : document) (full : bool) | WDelete (field : list Z) (ts : list (list Z)) | WCommit | WOptimize
                 | WSetMax (m : nat)      (* iw->config.max_buffered_docs = m (r_index.c 1845-1850) *)
                 | WReopen (m : nat).     (* iw_close and iw_open with max_buffered_docs m *)
  Definition iw_step (s : iw) (o : wop) : option iw :=
    match o with
    | WAdd d full => iw_add_doc d full s
    | WDelete f ts => iw_delete f ts s
    | WCommit => iw_commit s
    | WOptimize => iw_optimize s
    | WSetMax m => Some (mkIw (y_fis s) (y_segs s) m (y_dw s))
    | WReopen m => do s1 <- iw_commit s; Some (iw_open (y_fis s1) (y_segs s1) m)
    end.
  Fixpoint iw_run (s : iw) (os : list wop) : option iw := match os with [] => Some s | o :: t => do s' <- iw_step s o; iw_run s' t end.
End IW.

(* ind.c 202-250 index_add_doc with one key field; index.rb 263-297.  A DocField without data would be read uninitialised, here it counts as
   no key. *)
Definition key_of (key : list Z) (d : document) : option (list Z) :=
  match find (fun df => seqb (df_name df) key) (d_fields d) with Some df => match df_data df with v :: _ => Some v | [] => None end | None => None end.
Definition keyed_add (key : list Z) (x : document * bool) : list wop :=
  match key_of key (fst x) with Some v => [WDelete key [v]; WAdd (fst x) (snd x)] | None => [WAdd (fst x) (snd x)] end.
