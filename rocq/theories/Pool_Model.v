(* Model of the memory pool of the indexing process (c/src/mempool.c 6-76) and of what a DocWriter keeps in it (c/src/index.c 5184-5256, 5335-5374, 5456-5520,
   5648-5690, 6336-6350): field inverters, arrays of norms, and the blocks of the inversion (occurrences, postings, posting lists, terms).
   An address is (number of the buffer, offset).  A write or read outside its buffer, an int overflow and a division by zero are undefined (None); a buffer's
   contents before the first write are arbitrary.  Sizes are those of a 64-bit platform.  Alignment and running out of memory are not modelled. *)
From Verif Require Import Util.
Open Scope Z_scope.
Definition INT_MAX : Z := 2147483647.
Definition addr := (Z * Z)%type.
Record pool := mkPool { p_alloc : Z; p_capa : Z; p_bp : Z; p_ptr : Z; p_chunk : Z; p_mem : Z -> Z -> Z }.
(* mempool.c 6-18 mp_new_capa; 12 writes buffers[0] *)
Definition mp_new_capa (chunk capa : Z) (mem : Z -> Z -> Z) : option pool := if (chunk <? 0) || (capa <? 1) then None else Some (mkPool 1 capa 0 0 chunk mem).
(* 25-48 mp_alloc *)
Definition mp_alloc (p : pool) (size : Z) : option (addr * pool) :=
  let ptr := p_ptr p + size in
  if INT_MAX <? ptr then None
  else if p_chunk p <? ptr then
    let bp := p_bp p + 1 in
    if p_alloc p <=? bp then
      let alloc := p_alloc p + 1 in
      let capa := if p_capa p <=? alloc then p_capa p * 2 else p_capa p in
      if (INT_MAX <? capa) || (capa <=? bp) then None else Some ((bp, 0), mkPool alloc capa bp size (p_chunk p) (p_mem p))
    else Some ((bp, 0), mkPool (p_alloc p) (p_capa p) bp size (p_chunk p) (p_mem p))
  else Some ((p_bp p, p_ptr p), mkPool (p_alloc p) (p_capa p) (p_bp p) ptr (p_chunk p) (p_mem p)).
(* memset, memcpy and assignments: n bytes at a become those of g *)
Definition inside (p : pool) (a : addr) (n : Z) : bool := (0 <=? fst a) && (fst a <? p_alloc p) && (0 <=? snd a) && (snd a + n <=? p_chunk p).
Definition blit (p : pool) (a : addr) (n : Z) (g : Z -> Z) : option pool :=
  if inside p a n then Some (mkPool (p_alloc p) (p_capa p) (p_bp p) (p_ptr p) (p_chunk p) (fun b o => if (b =? fst a) && (snd a <=? o) && (o <? snd a + n) then g (o - snd a) else p_mem p b o)) else None.
Definition fetch (p : pool) (a : addr) (n : Z) : option (list Z) := if inside p a n then Some (map (fun i => p_mem p (fst a) (snd a + Z.of_nat i)) (seq 0 (Z.to_nat n))) else None.
(* 68-71 mp_used *)
Definition mp_used (p : pool) : option Z := let u := p_bp p * p_chunk p + p_ptr p in if INT_MAX <? u then None else Some u.
(* 73-78 mp_reset *)
Definition mp_reset (p : pool) : pool := mkPool (p_alloc p) (p_capa p) 0 0 (p_chunk p) (p_mem p).

(* what a user of the pool does: mp_memdup (63-66) or an allocation that is filled, MP_ALLOC_AND_ZERO_N, a write through a pointer to a block, mp_reset.
   Blocks are numbered from the last reset on; the table keeps pointers and lengths *)
Inductive pop := Dup (bytes : list Z) | Zero (n : Z) | Poke (k : nat) (off b : Z) | Reset.
Definition pstate := (pool * list (addr * Z))%type.
Definition take (s : pstate) (n : Z) (g : Z -> Z) : option pstate := do r <- mp_alloc (fst s) n; do p <- blit (snd r) (fst r) n g; Some (p, snd s ++ [(fst r, n)]).
Definition pstep (s : pstate) (o : pop) : option pstate :=
  match o with
  | Dup bytes => take s (Z.of_nat (length bytes)) (fun i => nth (Z.to_nat i) bytes 0)
  | Zero n => take s n (fun _ => 0)
  | Poke k off b => do x <- nth_error (snd s) k; do p <- blit (fst s) (fst (fst x), snd (fst x) + off) 1 (fun _ => b); Some (p, snd s)
  | Reset => Some (mp_reset (fst s), [])
  end.
Fixpoint prun (s : pstate) (l : list pop) : option pstate := match l with [] => Some s | o :: t => do s' <- pstep s o; prun s' t end.
Definition contents (s : pstate) : list (option (list Z)) := map (fun x => fetch (fst s) (fst x) (snd x)) (snd s).

(* ---------- the DocWriter *)
Record config := mkConf { chunk_size : Z; max_buffer_memory : Z; max_buffered_docs : Z }.
(* index.c 29-39 *)
Definition default_config : config := mkConf 1048576 16777216 10000.
(* the inversion of a field: new blocks, writes to its blocks (numbered from the last flush on), which depend on what it reads in its blocks *)
Inductive act := ADup (bytes : list Z) | APoke (j : nat) (off b : Z).
Record fld := mkFld { f_num : Z; f_acts : list (list Z) -> list act; f_norm : Z }.
Record dw := mkDw { w_mem : pstate; w_max : Z; w_doc : Z; w_flds : list (Z * option nat); w_own : list nat }.
(* 5456-5484 dw_open *)
Definition dw_open (c : config) (mem : Z -> Z -> Z) : option dw :=
  if chunk_size c =? 0 then None else do p <- mp_new_capa (chunk_size c) (Z.quot (max_buffer_memory c) (chunk_size c)) mem; Some (mkDw (p, []) (max_buffered_docs c) 0 [] []).
Section WRITER.
  Variable has_norms : Z -> bool.   (* fi_has_norms *)
  Definition sizeof_inverter : nat := 32.
  Fixpoint inverter (l : list (Z * option nat)) (f : Z) : option (option nat) := match l with [] => None | x :: t => if fst x =? f then Some (snd x) else inverter t f end.
  (* 5510-5519 dw_get_fld_inv, 5246-5263 fld_inv_new *)
  Definition get_inv (w : dw) (f : Z) : option (option nat * dw) :=
    match inverter (w_flds w) f with
    | Some k => Some (k, w)
    | None =>
        do s <- pstep (w_mem w) (Dup (repeat 0 sizeof_inverter));
        if has_norms f then do s' <- pstep s (Zero (w_max w)); Some (Some (length (snd s)), mkDw s' (w_max w) (w_doc w) (w_flds w ++ [(f, Some (length (snd s)))]) (w_own w))
        else Some (None, mkDw s (w_max w) (w_doc w) (w_flds w ++ [(f, None)]) (w_own w))
    end.
  Definition do_act (w : dw) (a : act) : option dw :=
    match a with
    | ADup bytes => do s <- pstep (w_mem w) (Dup bytes); Some (mkDw s (w_max w) (w_doc w) (w_flds w) (w_own w ++ [length (snd (w_mem w))]))
    | APoke j off b => do k <- nth_error (w_own w) j; do s <- pstep (w_mem w) (Poke k off b); Some (mkDw s (w_max w) (w_doc w) (w_flds w) (w_own w))
    end.
  Fixpoint do_acts (w : dw) (l : list act) : option dw := match l with [] => Some w | a :: t => do w' <- do_act w a; do_acts w' t end.
  Fixpoint all_some A (l : list (option A)) : option (list A) := match l with [] => Some [] | x :: t => do a <- x; do r <- all_some A t; Some (a :: r) end.
  Definition block_at (w : dw) (k : nat) : option (list Z) := do x <- nth_error (snd (w_mem w)) k; fetch (fst (w_mem w)) (fst x) (snd x).
  Definition own_blocks (w : dw) : option (list (list Z)) := all_some _ (map (block_at w) (w_own w)).
  (* 5662-5689, for fields that are indexed *)
  Definition add_field (w : dw) (x : fld) : option dw :=
    do r <- get_inv w (f_num x);
    do bs <- own_blocks (snd r);
    do w' <- do_acts (snd r) (f_acts x bs);
    match fst r with None => Some w' | Some k => do s <- pstep (w_mem w') (Poke k (w_doc w') (f_norm x)); Some (mkDw s (w_max w') (w_doc w') (w_flds w') (w_own w')) end.
  Fixpoint add_fields (w : dw) (l : list fld) : option dw := match l with [] => Some w | x :: t => do w' <- add_field w x; add_fields w' t end.
  Definition dw_add_doc (w : dw) (d : list fld) : option dw := do w' <- add_fields w d; Some (mkDw (w_mem w') (w_max w') (w_doc w' + 1) (w_flds w') (w_own w')).
  (* what a flush reads: doc_num norms of each field (5335-5344), the blocks of the inversion (5414-5447) *)
  Definition output := (list (Z * list Z) * list (list Z))%type.
  Definition norms_at (w : dw) (k : nat) : option (list Z) := do x <- nth_error (snd (w_mem w)) k; fetch (fst (w_mem w)) (fst x) (w_doc w).
  Definition flush (w : dw) : option (output * dw) :=
    do ns <- all_some _ (flat_map (fun x : Z * option nat => match snd x with Some k => [do l <- norms_at w k; Some (fst x, l)] | None => [] end) (w_flds w));
    do bs <- own_blocks w;
    do s <- pstep (w_mem w) Reset;
    Some ((ns, bs), mkDw s (w_max w) 0 [] []).
  (* ---------- the IndexWriter: 6336-6350 iw_add_doc, 6353-6358 iw_commit_i, and the setters of the configuration *)
  Inductive wop := WAdd (d : list fld) | WDocs (n : Z) | WMemory (n : Z) | WChunk (n : Z) | WCommit.
  Record iw := mkIw { i_conf : config; i_dw : option dw; i_out : list output }.
  Definition flush_iw (c : config) (w : dw) (out : list output) : option iw := do r <- flush w; Some (mkIw c (Some (snd r)) (out ++ [fst r])).
  Variable mem : Z -> Z -> Z.
  Definition iw_step (s : iw) (o : wop) : option iw :=
    let c := i_conf s in
    match o with
    | WAdd d =>
        do w <- (match i_dw s with Some w => Some w | None => dw_open c mem end);
        do w' <- dw_add_doc w d;
        do u <- mp_used (fst (w_mem w'));
        if (max_buffer_memory c <? u) || (max_buffered_docs c <=? w_doc w') then flush_iw c w' (i_out s) else Some (mkIw c (Some w') (i_out s))
    | WDocs n => Some (mkIw (mkConf (chunk_size c) (max_buffer_memory c) n) (i_dw s) (i_out s))
    | WMemory n => Some (mkIw (mkConf (chunk_size c) n (max_buffered_docs c)) (i_dw s) (i_out s))
    | WChunk n => Some (mkIw (mkConf n (max_buffer_memory c) (max_buffered_docs c)) (i_dw s) (i_out s))
    | WCommit => match i_dw s with Some w => if 0 <? w_doc w then flush_iw c w (i_out s) else Some s | None => Some s end
    end.
  Fixpoint iw_run (s : iw) (l : list wop) : option iw := match l with [] => Some s | o :: t => do s' <- iw_step s o; iw_run s' t end.
End WRITER.
