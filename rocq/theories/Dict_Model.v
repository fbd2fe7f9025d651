(* Model of the term dictionary of a segment (c/src/index.c): TermInfosWriter, SegmentFieldIndex, SegmentTermEnum, TermInfosReader.
   Files are lists of bytes; a stream is the list of the bytes behind its position (the buffering is in Stream_Model.v).  Terms are
   byte lists without the NUL.  None: an exception, or undefined behaviour. *)
From Verif Require Import Util Codec_Model Seg_Model Strcmp.
Open Scope Z_scope.

(* index.h FrtTermInfo *)
Record ti := mkTi { ti_df : Z; ti_frq : Z; ti_prx : Z; ti_skip : Z }.
Definition ti0 : ti := mkTi 0 0 0 0.
Definition MAX_WORD_SIZE : nat := 255.

(* helper.c:4-12 hlp_string_diff *)
Fixpoint string_diff (s t : list Z) : nat :=
  match s, t with a :: s', b :: t' => if a =? b then S (string_diff s' t') else O | _, _ => O end.

(* ---------- writing *)
(* TermWriter (index.h): what has been written, counter, last_term, last_term_info.  The C code keeps a pointer to the caller's copy
   of last_term; here it is the text at the time of the call. *)
Record tw := mkTw { tw_out : list Z; tw_cnt : Z; tw_term : list Z; tw_ti : ti }.
(* index.c:2759-2772 tw_write_term and 2774-2807 tw_add: the bytes of one entry *)
Definition enc_entry (skip_interval : Z) (lterm : list Z) (lti : ti) (term : list Z) (t : ti) : option (list Z) :=
  let start := string_diff lterm term in
  let length_ := (length term - start)%nat in
  do a <- enc_int (Z.of_nat start);
  do b <- enc_int (Z.of_nat length_);
  do c <- enc_int (ti_df t);
  do d <- enc_vint (ti_frq t - ti_frq lti);
  do e <- enc_vint (ti_prx t - ti_prx lti);
  do f <- (if skip_interval <=? ti_df t then enc_vint (ti_skip t) else Some []);
  Some (a ++ b ++ skipn start term ++ c ++ d ++ e ++ f).
Definition tw_add (w : tw) (skip_interval : Z) (term : list Z) (t : ti) : option tw :=
  do e <- enc_entry skip_interval (tw_term w) (tw_ti w) term t;
  Some (mkTw (tw_out w ++ e) (tw_cnt w + 1) term t).
Record tiw := mkTiw { w_tix : tw; w_tis : tw; w_tfx : list Z; w_last_ptr : Z; w_fields : Z; w_interval : Z; w_skip : Z }.
(* index.c:2726-2757 tiw_open; w_tfx is what follows the four bytes kept free *)
Definition tiw_open (interval skip : Z) : tiw :=
  mkTiw (mkTw [] interval [] ti0) (mkTw [] skip [] ti0) [] 0 0 interval skip.
(* index.c:2809-2834 tiw_add *)
Definition tiw_add (w : tiw) (term : list Z) (t : ti) : option tiw :=
  do w1 <- (if tw_cnt (w_tis w) mod w_interval w =? 0 then
              do x <- tw_add (w_tix w) (w_skip w) (tw_term (w_tis w)) (tw_ti (w_tis w));
              let pos := Z.of_nat (length (tw_out (w_tis w))) in
              do p <- enc_vint (pos - w_last_ptr w);
              Some (mkTiw (mkTw (tw_out x ++ p) (tw_cnt x) (tw_term x) (tw_ti x)) (w_tis w) (w_tfx w) pos (w_fields w) (w_interval w) (w_skip w))
            else Some w);
  do s <- tw_add (w_tis w1) (w_skip w1) term t;
  Some (mkTiw (w_tix w1) s (w_tfx w1) (w_last_ptr w1) (w_fields w1) (w_interval w1) (w_skip w1)).
(* index.c:2842-2854 tiw_start_field (with tw_reset, 2835-2840) *)
Definition tiw_start_field (w : tiw) (field : Z) : option tiw :=
  do a <- enc_int (tw_cnt (w_tix w));
  do b <- enc_int (tw_cnt (w_tis w));
  do c <- enc_int field;
  do d <- enc_vint (Z.of_nat (length (tw_out (w_tix w))));
  do e <- enc_vint (Z.of_nat (length (tw_out (w_tis w))));
  Some (mkTiw (mkTw (tw_out (w_tix w)) 0 [] ti0) (mkTw (tw_out (w_tis w)) 0 [] ti0) (w_tfx w ++ a ++ b ++ c ++ d ++ e) 0
              (w_fields w + 1) (w_interval w) (w_skip w)).
(* index.c:2856-2871 tiw_close: the files tis, tix, tfx *)
Record dfiles := mkDf { f_tis : list Z; f_tix : list Z; f_tfx : list Z }.
Definition tiw_close (w : tiw) : option dfiles :=
  do a <- enc_int (tw_cnt (w_tix w));
  do b <- enc_int (tw_cnt (w_tis w));
  Some (mkDf (tw_out (w_tis w)) (tw_out (w_tix w)) (enc_32 (w_fields w) ++ w_tfx w ++ a ++ b)).
(* writing the terms of all fields *)
Fixpoint add_terms (w : tiw) (l : list (list Z * ti)) : option tiw :=
  match l with [] => Some w | (t, i) :: l' => do w' <- tiw_add w t i; add_terms w' l' end.
Fixpoint add_fields (w : tiw) (fs : list (Z * list (list Z * ti))) : option tiw :=
  match fs with
  | [] => Some w
  | (n, l) :: fs' => do w1 <- tiw_start_field w n; do w2 <- add_terms w1 l; add_fields w2 fs'
  end.
Definition write_dict (interval skip : Z) (fs : list (Z * list (list Z * ti))) : option dfiles :=
  do w <- add_fields (tiw_open interval skip) fs; tiw_close w.

(* ---------- reading *)
(* SegmentTermIndex: index_ptr, ptr, index_cnt, size *)
Record sti := mkSti { s_iptr : Z; s_ptr : Z; s_icnt : Z; s_size : Z }.
Record sfi := mkSfi { s_interval : Z; s_skip : Z; s_dict : list (Z * sti) }.
Definition dec_voff : parser Z := get x <- lift (dec_v 64); pret (to_signed 64 x).
(* index.c:2166-2174: one field; h_set_int replaces an earlier entry *)
Fixpoint dec_dict (n : nat) (d : list (Z * sti)) : parser (list (Z * sti)) :=
  match n with
  | O => pret d
  | S n' =>
      get field <- dec_int; get iptr <- dec_voff; get ptr <- dec_voff; get icnt <- dec_int; get size <- dec_int;
      dec_dict n' ((field, mkSti iptr ptr icnt size) :: d)
  end.
(* index.c:2150-2182 sfi_open *)
Definition sfi_open (f : dfiles) : option sfi :=
  match (get n <- lift dec_u32; get i <- dec_int; get k <- dec_int; get d <- dec_dict (Z.to_nat (to_signed 32 n)) []; pret (mkSfi i k d)) (f_tfx f) with
  | POk s _ => Some s | _ => None end.
Definition h_get_int {A} (d : list (Z * A)) (n : Z) : option A :=
  match find (fun x => fst x =? n) d with Some (_, v) => Some v | None => None end.

(* SegmentTermEnum *)
Record ste := mkSte { e_in : list Z; e_pos : Z; e_size : Z; e_term : list Z; e_ti : ti; e_field : Z }.
Definition seek (file : list Z) (p : Z) : list Z := skipn (Z.to_nat p) file.
Definition take (n : nat) : parser (list Z) := fun bs => if (length bs <? n)%nat then PEof else POk (firstn n bs) (skipn n bs).
(* index.c:2195-2204 term_read: a prefix longer than the current term, or a term that does not fit the buffer, is undefined *)
Definition term_read (cur : list Z) : parser (list Z) :=
  get start <- dec_int; get len <- dec_int;
  if (start <? 0) || (len <? 0) || (Z.of_nat (length cur) <? start) || (Z.of_nat MAX_WORD_SIZE <=? start + len) then (fun _ => PUB)
  else get b <- take (Z.to_nat len); pret (firstn (Z.to_nat start) cur ++ b).
(* index.c:2206-2230 ste_next *)
Definition read_entry (skip_interval : Z) (cur : list Z) (t : ti) : parser (list Z * ti) :=
  get term <- term_read cur; get df <- dec_int; get f <- dec_voff; get p <- dec_voff;
  if skip_interval <=? df then get s <- dec_voff; pret (term, mkTi df (ti_frq t + f) (ti_prx t + p) s)
  else pret (term, mkTi df (ti_frq t + f) (ti_prx t + p) (ti_skip t)).
Definition ste_next (skip_interval : Z) (e : ste) : option (option (list Z) * ste) :=
  let pos := e_pos e + 1 in
  if e_size e <=? pos then Some (None, mkSte (e_in e) pos (e_size e) [] (e_ti e) (e_field e))
  else match read_entry skip_interval (e_term e) (e_ti e) (e_in e) with
       | POk (term, t) rest => Some (Some term, mkSte rest pos (e_size e) term t (e_field e))
       | _ => None end.
(* index.c:2361-2373 ste_new *)
Definition ste_new : ste := mkSte [] (-1) 0 [] ti0 (-1).
(* index.c:2240-2254 ste_set_field (with ste_reset) on the tis file *)
Definition ste_set_field (f : dfiles) (s : sfi) (e : ste) (field : Z) : ste :=
  match h_get_int (s_dict s) field with
  | Some x => mkSte (seek (f_tis f) (s_ptr x)) (-1) (s_size x) [] ti0 field
  | None => mkSte (e_in e) (-1) 0 [] ti0 field
  end.
(* index.c:2084-2113 sti_ensure_index_is_read: the index terms with their infos and pointers *)
Fixpoint read_index (n : nat) (skip_interval : Z) (cur : list Z) (t : ti) (ptr : Z) : parser (list (list Z * ti * Z)) :=
  match n with
  | O => pret []
  | S n' =>
      get x <- read_entry skip_interval cur t; get d <- dec_voff;
      get r <- read_index n' skip_interval (fst x) (snd x) (ptr + d);
      pret ((fst x, snd x, ptr + d) :: r)
  end.
Definition ensure_index (f : dfiles) (s : sfi) (x : sti) : option (list (list Z * ti * Z)) :=
  match read_index (Z.to_nat (s_icnt x)) (s_skip s) [] ti0 0 (seek (f_tix f) (s_iptr x)) with POk l _ => Some l | _ => None end.
(* index.c:2115-2136 sti_get_index_offset; index_terms[mid] outside the array is undefined *)
Fixpoint index_offset (fuel : nat) (idx : list (list Z * ti * Z)) (term : list Z) (lo hi : Z) : option Z :=
  match fuel with
  | O => None
  | S f => if lo <=? hi then
             let mid := (lo + hi) / 2 in
             match nth_error idx (Z.to_nat mid) with
             | None => None
             | Some (m, _, _) => match scmp term m with
                                 | Lt => index_offset f idx term lo (mid - 1)
                                 | Gt => index_offset f idx term (mid + 1) hi
                                 | Eq => Some mid end
             end
           else Some hi
  end.
(* index.c:2256-2266 ste_index_seek *)
Definition ste_index_seek (f : dfiles) (s : sfi) (e : ste) (idx : list (list Z * ti * Z)) (o : Z) : option ste :=
  if o <? 0 then None else
  match nth_error idx (Z.to_nat o) with
  | Some (m, t, p) => Some (mkSte (seek (f_tis f) p) (s_interval s * o - 1) (e_size e) m t (e_field e))
  | None => None end.
(* index.c:2045-2054 te_skip_to *)
Fixpoint skip_loop (fuel : nat) (skip_interval : Z) (e : ste) (term : list Z) : option (option (list Z) * ste) :=
  match fuel with
  | O => None
  | S f => do r <- ste_next skip_interval e;
           match fst r with
           | None => Some r
           | Some c => if sltb c term then skip_loop f skip_interval (snd r) term else Some r
           end
  end.
Definition te_skip_to (skip_interval : Z) (e : ste) (term : list Z) : option (option (list Z) * ste) :=
  if sltb (e_term e) term then skip_loop (S (S (Z.to_nat (e_size e)))) skip_interval e term else Some (Some (e_term e), e).
(* index.c:2268-2295 ste_scan_to *)
Definition ste_scan_to (f : dfiles) (s : sfi) (e : ste) (term : list Z) : option (option (list Z) * ste) :=
  match h_get_int (s_dict s) (e_field e) with
  | Some x =>
      if 0 <? s_size x then
        do idx <- ensure_index f s x;
        match term with
        | [] => do e1 <- ste_index_seek f s e idx 0; ste_next (s_skip s) e1
        | _ :: _ =>
            let seek_it := do o <- index_offset (S (length idx)) idx term 0 (s_icnt x - 1);
                           do e1 <- ste_index_seek f s e idx o; te_skip_to (s_skip s) e1 term in
            if (e_pos e <? e_size e) && sleb (e_term e) term then
              let eo := Z.quot (e_pos e) (s_interval s) + 1 in
              if s_icnt x =? eo then te_skip_to (s_skip s) e term
              else match nth_error idx (Z.to_nat eo) with
                   | None => None
                   | Some (m, _, _) => if sltb term m then te_skip_to (s_skip s) e term else seek_it
                   end
            else seek_it
        end
      else Some (None, e)
  | None => Some (None, e)
  end.
(* index.c:2337-2359 ste_get_term; pos is not negative (tir_get_term, 2684-2692) *)
Fixpoint next_until (fuel : nat) (skip_interval : Z) (e : ste) (pos : Z) : option (option (list Z) * ste) :=
  match fuel with
  | O => None
  | S f => if e_pos e <? pos then
             do r <- ste_next skip_interval e;
             match fst r with None => Some r | Some _ => next_until f skip_interval (snd r) pos end
           else Some (Some (e_term e), e)
  end.
Definition ste_get_term (f : dfiles) (s : sfi) (e : ste) (pos : Z) : option (option (list Z) * ste) :=
  if e_size e <=? pos then Some (None, e)
  else if pos =? e_pos e then Some (Some (e_term e), e)
  else
    let i := s_interval s in
    do e1 <- (if (pos <? e_pos e) || ((1 + Z.quot (e_pos e) i) * i <? pos) then
                match h_get_int (s_dict s) (e_field e) with
                | Some x => do idx <- ensure_index f s x; ste_index_seek f s e idx (Z.quot pos i)
                | None => None end
              else Some e);
    next_until (S (Z.to_nat (pos - e_pos e1))) (s_skip s) e1 pos.
(* index.c:2654-2664 tir_get_ti (and 2666-2682 after the field is set) *)
Definition tir_get_ti (f : dfiles) (s : sfi) (e : ste) (term : list Z) : option (option ti * ste) :=
  do r <- ste_scan_to f s e term;
  Some (match fst r with Some m => if seqb m term then Some (e_ti (snd r)) else None | None => None end, snd r).

(* TermInfosReader: the field number is shared, every thread has its own enumerator (2618-2642).  thread_getspecific is a map from
   thread to enumerator; a thread's first call clones orig_te and sets the shared field on the clone. *)
Record tir := mkTir { t_field : Z; t_enums : list (nat * ste) }.
Definition tir_open : tir := mkTir (-1) [].
Definition tir_enum (f : dfiles) (s : sfi) (t : tir) (th : nat) : ste :=
  match find (fun x => (fst x =? th)%nat) (t_enums t) with
  | Some (_, e) => e
  | None => ste_set_field f s ste_new (t_field t)
  end.
(* index.c:2666-2682 tir_get_ti_field by thread th *)
Definition tir_get_ti_field (f : dfiles) (s : sfi) (t : tir) (th : nat) (field : Z) (term : list Z) : option (option ti * tir) :=
  let e := tir_enum f s t th in
  let e := if field =? t_field t then e else ste_set_field f s e field in
  do r <- tir_get_ti f s e term;
  Some (fst r, mkTir field ((th, snd r) :: t_enums t)).
Fixpoint tir_run (f : dfiles) (s : sfi) (t : tir) (ls : list (nat * (Z * list Z))) : option (list (option ti)) :=
  match ls with
  | [] => Some []
  | (th, (field, term)) :: ls' => do r <- tir_get_ti_field f s t th field term; do q <- tir_run f s (snd r) ls'; Some (fst r :: q)
  end.

(* index.c:5619-5629 dw_invert_field: the term an untokenized field value becomes *)
Definition untok_term (data : list Z) : list Z := if (MAX_WORD_SIZE <? length data)%nat then firstn (MAX_WORD_SIZE - 1) data else data.
