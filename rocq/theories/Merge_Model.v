(* Model of the merging of segments, c/src/index.c:5695-6160 (SegmentMergeInfo, SegmentMerger).  Files are lists of bytes, a stream is the
   list of the bytes behind its position.  None: an exception, a failed assertion, or undefined behaviour.
   Not modelled: opening of compound files (Compound_Model.v), names of files, memory of the merger other than the term buffer. *)
From Verif Require Import Util Codec_Model Seg_Model Strcmp Dict_Model Post_Model PQueue_Model.
Open Scope Z_scope.

(* ---------- the segments to be merged *)
(* what smi_new (5747-5773) and smi_load_term_input (5775-5790) open: the files, max_doc, and deleted_docs when there is a generation *)
Record min_ := mkMin { i_seg : seg; i_sfi : sfi; i_max : nat; i_del : option (Z -> bool) }.
Record smi := mkSmi { m_in : min_; m_base : Z; m_map : option (list Z); m_cnt : Z }.
(* 5729-5745 smi_load_doc_map *)
Fixpoint load_map (del : Z -> bool) (n : nat) (i j : Z) : list Z * Z :=
  match n with
  | O => ([], j)
  | S n' => if del i then let r := load_map del n' (i + 1) j in (-1 :: fst r, snd r)
            else let r := load_map del n' (i + 1) (j + 1) in (j :: fst r, snd r)
  end.
Definition smi_new (base : Z) (x : min_) : smi :=
  match i_del x with
  | None => mkSmi x base None (Z.of_nat (i_max x))
  | Some del => let r := load_map del (i_max x) 0 0 in mkSmi x base (Some (fst r)) (snd r)
  end.
(* 5839-5858 sm_create: the loop, doc_cnt is the base of the next segment *)
Fixpoint sm_create (doc_cnt : Z) (xs : list min_) : list smi :=
  match xs with [] => [] | x :: t => let m := smi_new doc_cnt x in m :: sm_create (doc_cnt + m_cnt m) t end.
(* deleted_docs && bv_get(deleted_docs, d) *)
Definition dels (x : min_) (d : Z) : bool := match i_del x with Some f => f d | None => false end.

(* ---------- postings *)
(* store.c:636-645 is2os_copy_vints: the bytes copied and the rest *)
Fixpoint copy_one (bs : list Z) : option (list Z * list Z) :=
  match bs with
  | [] => None
  | b :: t => if Z.land b 128 =? 0 then Some ([b], t) else do r <- copy_one t; Some (b :: fst r, snd r)
  end.
Fixpoint copy_vints (cnt : nat) (bs : list Z) : option (list Z * list Z) :=
  match cnt with
  | O => Some ([], bs)
  | S c => do a <- copy_one bs; do r <- copy_vints c (snd a); Some (fst a ++ fst r, snd r)
  end.
(* 5947-5967: one document; frq and prx are the streams of the segment *)
Definition enc_doc_freq (last doc fr : Z) : option (list Z) :=
  let code := 2 * (doc - last) in
  if fr =? 1 then enc_int (code + 1) else do a <- enc_int code; do b <- enc_int fr; Some (a ++ b).
Definition sm_doc (k : Z) (w : pw) (doc fr : Z) (prx : list Z) : option (pw * list Z) :=
  if (doc =? 0) || (w_last w <? doc) then
    let df := w_df w + 1 in
    do w1 <- (if df mod k =? 0 then skip_buf_add w (w_last w) else Some w);
    do a <- enc_doc_freq (w_last w1) doc fr;
    do b <- copy_vints (Z.to_nat fr) prx;
    Some (mkPw (w_frq w1 ++ a) (w_prx w1 ++ fst b) df doc (w_buf w1) (w_sdoc w1) (w_sfrq w1) (w_sprx w1), snd b)
  else None.
Definition new_doc (m : smi) (doc : Z) : option Z :=
  do d <- match m_map m with
          | Some l => if doc <? 0 then None else nth_error l (Z.to_nat doc)
          | None => Some doc end;
  Some (d + m_base m).
(* 5941-5968: the documents of one segment; stde_next, not stpe_next *)
Fixpoint append_docs (fuel : nat) (k : Z) (m : smi) (w : pw) (e : tde) : option (pw * tde) :=
  match fuel with
  | O => None
  | S f =>
      do r <- stde_next true (dels (m_in m)) e;
      let e1 := snd r in
      if fst r then
        do doc <- new_doc m (p_doc e1);
        do z <- sm_doc k w doc (p_freq e1) (p_prx e1);
        append_docs f k m (fst z) (set_prx e1 (snd z) (p_pcnt e1) (p_posn e1))
      else Some (w, e1)
  end.
(* 5922-5974 sm_append_postings over the matches, given by their numbers; the counters of the loop are in pw *)
Notation states := (list (ste * tde)).
Fixpoint append_postings (k : Z) (smis : list smi) (ms : list nat) (sts : states) (w : pw) : option (pw * states) :=
  match ms with
  | [] => Some (w, sts)
  | i :: ms' =>
      do m <- nth_error smis i;
      do st <- nth_error sts i;
      let g := i_seg (m_in m) in
      let e := stpe_seek_ti (g_frq g) (g_prx g) (s_skip (i_sfi (m_in m))) (snd st) (Some (e_ti (fst st))) in
      do r <- append_docs (S (Z.to_nat (p_df e))) k m w e;
      append_postings k smis ms' (upd sts i (fst st, snd r)) (fst r)
  end.

(* ---------- the dictionary and the term buffer *)
(* TermInfosWriter with the pointers it keeps: last_term of the tis and of the tix writer, None being EMPTY_STRING.  The texts in tiw are
   read again through the pointers before they are used. *)
Record mw := mkMw { m_tiw : tiw; m_buf : list Z; m_ptr : nat; m_tis : option nat; m_tix : option nat }.
(* 6076 term_buf_size, and 6077 the bytes allocated *)
Definition buf_size (interval : nat) : nat := ((interval + 1) * MAX_WORD_SIZE)%nat.
Definition buf_alloc (interval : nat) : nat := (buf_size interval + MAX_WORD_SIZE)%nat.
Fixpoint cstr (bs : list Z) : option (list Z) :=
  match bs with [] => None | b :: t => if b =? 0 then Some [] else do r <- cstr t; Some (b :: r) end.
Definition deref (buf : list Z) (p : option nat) : option (list Z) :=
  match p with None => Some [] | Some p => cstr (skipn p buf) end.
(* 5976-5984 sm_cache_term: the buffer, the pointer returned, term_buf_ptr *)
Definition cache_term (interval : nat) (buf : list Z) (ptr : nat) (term : list Z) : option (list Z * nat) :=
  let e := (ptr + length term + 1)%nat in
  if (length buf <? e)%nat then None
  else Some (firstn ptr buf ++ term ++ 0 :: skipn e buf, if (buf_size interval <? e)%nat then O else e).
Definition retext (w : tw) (t : list Z) : tw := mkTw (tw_out w) (tw_cnt w) t (tw_ti w).
(* tiw_add (2809-2834) on a cached term *)
Definition mw_add (interval : nat) (w : mw) (term : list Z) (t : ti) : option mw :=
  let W := m_tiw w in
  do c <- cache_term interval (m_buf w) (m_ptr w) term;
  let index := tw_cnt (w_tis W) mod w_interval W =? 0 in
  do a <- (if index then deref (fst c) (m_tix w) else Some (tw_term (w_tix W)));
  do b <- deref (fst c) (m_tis w);
  do W' <- tiw_add (mkTiw (retext (w_tix W) a) (retext (w_tis W) b) (w_tfx W) (w_last_ptr W) (w_fields W) (w_interval W) (w_skip W)) term t;
  Some (mkMw W' (fst c) (snd c) (Some (m_ptr w)) (if index then m_tis w else m_tix w)).
Definition mw_start_field (w : mw) (n : Z) : option mw :=
  do W <- tiw_start_field (m_tiw w) n; Some (mkMw W (m_buf w) (m_ptr w) None None).

(* ---------- the loop over the terms *)
(* 5717-5727 smi_lt on the term and the base; the number of the segment is not compared *)
Notation qel := (list Z * (Z * nat))%type.
Definition smi_lt (a b : qel) : bool := match scmp (fst a) (fst b) with Eq => fst (snd a) <? fst (snd b) | Lt => true | Gt => false end.
Record mst := mkMst { t_q : pq qel; t_sts : states; t_frq : list Z; t_prx : list Z; t_w : mw }.
(* smi_next (5817-5820), and the push unless it is at the end *)
Definition next_push (smis : list smi) (i : nat) (q : pq qel) (sts : states) : option (pq qel * states) :=
  do m <- nth_error smis i;
  do st <- nth_error sts i;
  do r <- ste_next (s_skip (i_sfi (m_in m))) (fst st);
  do q2 <- match fst r with Some t => pq_push _ smi_lt q (t, (m_base m, i)) | None => Some q end;
  Some (q2, upd sts i (snd r, snd st)).
(* 6022-6028: the start of a field *)
Fixpoint start_all (smis : list smi) (n : Z) (is : list nat) (q : pq qel) (sts : states) : option (pq qel * states) :=
  match is with
  | [] => Some (q, sts)
  | i :: is' =>
      do m <- nth_error smis i;
      do st <- nth_error sts i;
      let e := ste_set_field (g_dict (i_seg (m_in m))) (i_sfi (m_in m)) (fst st) n in
      do r <- next_push smis i q (upd sts i (e, snd st));
      start_all smis n is' (fst r) (snd r)
  end.
(* 6039-6045: the other segments with the same term.  matches has a slot for every segment: running out of fuel is writing behind it *)
Fixpoint pop_equal (fuel : nat) (term : list Z) (q : pq qel) : option (list nat * pq qel) :=
  do top <- pq_top _ q;
  match top with
  | Some (t, _) =>
      if seqb term t then
        match fuel with
        | O => None
        | S f => do r <- pq_pop _ smi_lt q;
                 match fst r with
                 | Some (_, (_, i)) => do z <- pop_equal f term (snd r); Some (i :: fst z, snd z)
                 | None => None end
        end
      else Some ([], q)
  | None => Some ([], q)
  end.
(* 6050-6056: from the last match to the first *)
Fixpoint restore (smis : list smi) (is : list nat) (q : pq qel) (sts : states) : option (pq qel * states) :=
  match is with [] => Some (q, sts) | i :: is' => do r <- next_push smis i q sts; restore smis is' (fst r) (snd r) end.
(* 5986-6006 sm_merge_term_info; first_match->term is the text the first match stands on *)
Definition merge_term_info (interval : nat) (k : Z) (smis : list smi) (ms : list nat) (term : list Z) (s : mst) : option mst :=
  do r <- append_postings k smis ms (t_sts s) (mkPw (t_frq s) (t_prx s) 0 0 [] 0 (os_pos (t_frq s)) (os_pos (t_prx s)));
  let w := fst r in
  let t := mkTi (w_df w) (os_pos (t_frq s)) (os_pos (t_prx s)) (os_pos (w_frq w) - os_pos (t_frq s)) in
  do w2 <- (if 0 <? w_df w then mw_add interval (t_w s) term t else Some (t_w s));
  Some (mkMst (t_q s) (snd r) (w_frq w ++ w_buf w) (w_prx w) w2).
(* 6036-6057: one round *)
Definition merge_term (interval : nat) (k : Z) (smis : list smi) (s : mst) : option mst :=
  do r <- pq_pop _ smi_lt (t_q s);
  match fst r with
  | None => None
  | Some (term, (_, i)) =>
      do z <- pop_equal (length smis - 1) term (snd r);
      let ms := i :: fst z in
      do s1 <- merge_term_info interval k smis ms term (mkMst (snd z) (t_sts s) (t_frq s) (t_prx s) (t_w s));
      do y <- restore smis (rev ms) (t_q s1) (t_sts s1);
      Some (mkMst (fst y) (snd y) (t_frq s1) (t_prx s1) (t_w s1))
  end.
(* 6029-6058: while the queue is not empty; it ends because every round moves an enumerator on *)
Fixpoint merge_loop (fuel : nat) (interval : nat) (k : Z) (smis : list smi) (s : mst) : option mst :=
  match fuel with
  | O => None
  | S f => if (0 <? pq_size (t_q s))%nat then do s' <- merge_term interval k smis s; merge_loop f interval k smis s' else Some s
  end.
Definition left_over (sts : states) : nat := fold_right (fun st z => (Z.to_nat (e_size (fst st)) + z)%nat) O sts.
Fixpoint merge_fields (interval : nat) (k : Z) (smis : list smi) (ns : list nat) (s : mst) : option mst :=
  match ns with
  | [] => Some s
  | n :: ns' =>
      do w <- mw_start_field (t_w s) (Z.of_nat n);
      do r <- start_all smis (Z.of_nat n) (seq 0 (length smis)) (t_q s) (t_sts s);
      do s' <- merge_loop (S (left_over (snd r))) interval k smis (mkMst (fst r) (snd r) (t_frq s) (t_prx s) w);
      merge_fields interval k smis ns' s'
  end.
(* 6065-6098 sm_merge_terms with 6008-6063 sm_merge_term_infos; buf0 is what malloc returned, nf is fis->size *)
Definition sm_merge_terms (interval : nat) (k : Z) (buf0 : list Z) (nf : nat) (xs : list min_) : option seg :=
  let smis := sm_create 0 xs in
  let sts := map (fun x => (ste_new, tde_new (g_frq (i_seg x)) (g_prx (i_seg x)))) xs in
  let w := mkMw (tiw_open (Z.of_nat interval) k) buf0 O None None in
  do s <- merge_fields interval k smis (seq 0 nf) (mkMst (pq_new _ (length xs)) sts [] [] w);
  do d <- tiw_close (m_tiw (t_w s));
  Some (mkSeg (t_frq s) (t_prx s) d).

(* ---------- stored fields *)
(* 5895-5914: the documents j.. of one segment; fdx is the rest of its index, n documents are left, start is where document j begins.
   is2os_copy_bytes takes an int: a document of 2^31 bytes or more is not modelled *)
Fixpoint copy_docs (n : nat) (j : Z) (del : Z -> bool) (fdt fdx : list Z) (start : Z) (out_t out_x : list Z) : option (list Z * list Z) :=
  match n with
  | O => Some (out_t, out_x)
  | S n' =>
      match dec_u32 fdx with
      | ROk tv fdx1 =>
          do r <- (match n' with
                   | O => Some (Z.of_nat (length fdt), fdx1)
                   | S _ => match dec_u64 fdx1 with ROk e fdx2 => Some (e, fdx2) | _ => None end end);
          let e := fst r in
          if del j then copy_docs n' (j + 1) del fdt (snd r) e out_t out_x
          else if (0 <=? start) && (start <=? e) && (e <=? Z.of_nat (length fdt)) then
            copy_docs n' (j + 1) del fdt (snd r) e (out_t ++ firstn (Z.to_nat (e - start)) (seek fdt start)) (out_x ++ enc_64 (Z.of_nat (length out_t)) ++ enc_32 tv)
          else None
      | _ => None
      end
  end.
(* 5869-5920 sm_merge_fields on the files fdt and fdx of the segments, max_doc being the length of fdx / 12 *)
Notation dseg := (list Z * list Z * option (Z -> bool))%type.
Fixpoint sm_merge_fields (xs : list dseg) (out_t out_x : list Z) : option (list Z * list Z) :=
  match xs with
  | [] => Some (out_t, out_x)
  | (fdt, fdx, del) :: xs' =>
      let d := match del with Some f => f | None => fun _ => false end in
      match (length fdx / 12)%nat with
      | O => sm_merge_fields xs' out_t out_x
      | S n => match dec_u64 fdx with
               | ROk start rest => do r <- copy_docs (S n) 0 d fdt rest start out_t out_x; sm_merge_fields xs' (fst r) (snd r)
               | _ => None end
      end
  end.

(* ---------- norms *)
(* 6124-6131: byte by byte *)
Fixpoint copy_norms (n : nat) (k : Z) (del : Z -> bool) (is : list Z) : option (list Z) :=
  match n with
  | O => Some []
  | S n' => match is with
            | [] => None
            | b :: t => do r <- copy_norms n' (k + 1) del t; Some (if del k then r else b :: r)
            end
  end.
(* 6117-6146: one field with norms; a segment has a norm file or not, max_doc, deleted_docs *)
Notation nseg := (option (list Z) * nat * option (Z -> bool))%type.
Fixpoint sm_merge_norms (xs : list nseg) : option (list Z) :=
  match xs with
  | [] => Some []
  | (file, max_doc, del) :: xs' =>
      do a <- match file, del with
              | Some is, Some d => copy_norms max_doc 0 d is
              | Some is, None => if (length is <? max_doc)%nat then None else Some (firstn max_doc is)
              | None, None => Some (repeat 0 max_doc)
              | None, Some d => Some (repeat 0 (Z.to_nat (snd (load_map d max_doc 0 0))))
              end;
      do r <- sm_merge_norms xs'; Some (a ++ r)
  end.
