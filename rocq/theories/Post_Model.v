(* Model of the postings of a segment (c/src/index.c): the writer in dw_flush with its skip buffer, SegmentTermDocEnum (stde) and
   SegmentTermPosEnum (stpe).  Files are lists of bytes, a stream is the list of the bytes behind its position.  None: exception or
   undefined behaviour. *)
From Verif Require Import Util Codec_Model Seg_Model Dict_Model.
Open Scope Z_scope.

(* a posting: document number and positions; the frequency is the number of positions *)
Notation post := (Z * list Z)%type.
Definition freq (p : post) : Z := Z.of_nat (length (snd p)).

(* ---------- writing (dw_flush, 5410-5447) *)
(* 5439-5443: positions as differences; os_write_vint takes an unsigned int *)
Fixpoint enc_pos (last : Z) (ps : list Z) : option (list Z) :=
  match ps with [] => Some [] | p :: t => do a <- enc_int (p - last); do b <- enc_pos p t; Some (a ++ b) end.
(* 5427-5437 *)
Definition enc_doc (last : Z) (p : post) : option (list Z) :=
  let code := 2 * (fst p - last) in
  if freq p =? 1 then enc_int (code + 1) else do a <- enc_int code; do b <- enc_int (freq p); Some (a ++ b).
(* the output streams, the counters of the loop, and the skip buffer (5275-5321) *)
Record pw := mkPw { w_frq : list Z; w_prx : list Z; w_df : Z; w_last : Z; w_buf : list Z; w_sdoc : Z; w_sfrq : Z; w_sprx : Z }.
Definition os_pos (s : list Z) : Z := Z.of_nat (length s).
(* 5302-5314 skip_buf_add *)
Definition skip_buf_add (w : pw) (doc : Z) : option pw :=
  do a <- enc_int (doc - w_sdoc w);
  do b <- enc_int (os_pos (w_frq w) - w_sfrq w);
  do c <- enc_int (os_pos (w_prx w) - w_sprx w);
  Some (mkPw (w_frq w) (w_prx w) (w_df w) (w_last w) (w_buf w ++ a ++ b ++ c) doc (os_pos (w_frq w)) (os_pos (w_prx w))).
Definition pw_add (k : Z) (w : pw) (p : post) : option pw :=
  let df := w_df w + 1 in
  do w1 <- (if df mod k =? 0 then skip_buf_add w (w_last w) else Some w);
  do a <- enc_doc (w_last w1) p;
  do b <- enc_pos 0 (snd p);
  Some (mkPw (w_frq w1 ++ a) (w_prx w1 ++ b) df (fst p) (w_buf w1) (w_sdoc w1) (w_sfrq w1) (w_sprx w1)).
Fixpoint pw_adds (k : Z) (w : pw) (l : list post) : option pw :=
  match l with [] => Some w | p :: t => do w' <- pw_add k w p; pw_adds k w' t end.
(* one term: the files so far and the new TermInfo *)
Definition write_term (k : Z) (frq prx : list Z) (l : list post) : option (list Z * list Z * ti) :=
  do w <- pw_adds k (mkPw frq prx 0 0 [] 0 (os_pos frq) (os_pos prx)) l;
  Some (w_frq w ++ w_buf w, w_prx w, mkTi (w_df w) (os_pos frq) (os_pos prx) (os_pos (w_frq w) - os_pos frq)).
(* the terms of a field, the fields; the entries for the dictionary *)
Fixpoint write_terms (k : Z) (frq prx : list Z) (l : list (list Z * list post)) : option (list Z * list Z * list (list Z * ti)) :=
  match l with
  | [] => Some (frq, prx, [])
  | (t, ps) :: l' => do x <- write_term k frq prx ps;
                     do y <- write_terms k (fst (fst x)) (snd (fst x)) l';
                     Some (fst y, (t, snd x) :: snd y)
  end.
Fixpoint write_fields (k : Z) (frq prx : list Z) (fs : list (Z * list (list Z * list post))) : option (list Z * list Z * list (Z * list (list Z * ti))) :=
  match fs with
  | [] => Some (frq, prx, [])
  | (n, l) :: fs' => do x <- write_terms k frq prx l;
                     do y <- write_fields k (fst (fst x)) (snd (fst x)) fs';
                     Some (fst y, (n, snd x) :: snd y)
  end.
Record seg := mkSeg { g_frq : list Z; g_prx : list Z; g_dict : dfiles }.
Definition dw_flush (interval k : Z) (fs : list (Z * list (list Z * list post))) : option seg :=
  do x <- write_fields k [] [] fs;
  do d <- write_dict interval k (snd x);
  Some (mkSeg (fst (fst x)) (snd (fst x)) d).

(* ---------- reading *)
(* SegmentTermDocEnum (index.h:415-448) *)
Record tde := mkTde {
  p_frq : list Z; p_prx : list Z; p_skip : option (list Z);
  p_count : Z; p_df : Z; p_doc : Z; p_freq : Z;
  p_sdoc : Z; p_scount : Z; p_num : Z; p_fptr : Z; p_pptr : Z; p_sptr : Z; p_have : bool;
  p_pcnt : Z; p_posn : Z }.
(* 3090-3118 stde_new, 3195-3219 stpe_new: clones of the reader's streams *)
Definition tde_new (frq prx : list Z) : tde := mkTde frq prx None 0 0 0 0 0 0 0 0 0 0 false 0 0.
Definition is_pos (file rem : list Z) : Z := Z.of_nat (length file) - Z.of_nat (length rem).
(* 2891-2909 stde_seek_ti *)
Definition stde_seek_ti (frq : list Z) (k : Z) (e : tde) (t : option ti) : tde :=
  match t with
  | None => mkTde (p_frq e) (p_prx e) (p_skip e) (p_count e) 0 (p_doc e) (p_freq e) (p_sdoc e) (p_scount e) (p_num e) (p_fptr e) (p_pptr e) (p_sptr e) (p_have e) (p_pcnt e) (p_posn e)
  | Some t => mkTde (seek frq (ti_frq t)) (p_prx e) (p_skip e) 0 (ti_df t) 0 (p_freq e) 0 0 (Z.quot (ti_df t) k) (ti_frq t) (ti_prx t) (ti_frq t + ti_skip t) false (p_pcnt e) (p_posn e)
  end.
Definition set_prx (e : tde) (prx : list Z) (cnt pos : Z) : tde :=
  mkTde (p_frq e) prx (p_skip e) (p_count e) (p_df e) (p_doc e) (p_freq e) (p_sdoc e) (p_scount e) (p_num e) (p_fptr e) (p_pptr e) (p_sptr e) (p_have e) cnt pos.
(* 3126-3135 stpe_seek_ti *)
Definition stpe_seek_ti (frq prx : list Z) (k : Z) (e : tde) (t : option ti) : tde :=
  match t with
  | None => stde_seek_ti frq k e None
  | Some t => let e1 := stde_seek_ti frq k e (Some t) in set_prx e1 (seek prx (ti_prx t)) (p_pcnt e1) (p_posn e1)
  end.
(* the seek of both kinds (2911-2915, 3137-3143) once the dictionary has answered; pos tells the kind *)
Definition tde_seek (pos : bool) (frq prx : list Z) (k : Z) (e : tde) (t : option ti) : tde :=
  if pos then let e1 := stpe_seek_ti frq prx k e t in set_prx e1 (p_prx e1) 0 (p_posn e1) else stde_seek_ti frq k e t.
(* 2917-2925 stde_seek_te, which stpe_new does not replace *)
Definition tde_seek_te (frq : list Z) (k : Z) (e : tde) (t : ti) : tde := stde_seek_ti frq k e (Some t).

Definition skipv (cnt : Z) (bs : list Z) : option (list Z) :=
  match skip_vints (Z.to_nat cnt) bs with ROk _ t => Some t | _ => None end.
(* 2946-2956 and 2979-2987: one entry of the frequency file; an int code shifted right keeps its sign *)
Definition read_doc : parser (Z * Z) :=
  get code <- dec_int;
  if Z.land code 1 =? 0 then get f <- dec_int; pret (Z.shiftr code 1, f) else pret (Z.shiftr code 1, 1).
Definition step_doc (e : tde) : option tde :=
  match read_doc (p_frq e) with
  | POk (d, f) rest =>
      Some (mkTde rest (p_prx e) (p_skip e) (p_count e + 1) (p_df e) (p_doc e + d) f (p_sdoc e) (p_scount e) (p_num e) (p_fptr e) (p_pptr e) (p_sptr e) (p_have e) (p_pcnt e) (p_posn e))
  | _ => None end.
(* 2939-2968 stde_next.  del: deleted_docs as it is now (NULL deletes nothing); pos: skip_prox of the kind.  The loop ends because
   count grows. *)
Fixpoint stde_next_loop (fuel : nat) (pos : bool) (del : Z -> bool) (e : tde) : option (bool * tde) :=
  match fuel with
  | O => None
  | S f =>
      if p_df e <=? p_count e then Some (false, e)
      else do e1 <- step_doc e;
           if del (p_doc e1) then
             do x <- (if pos then skipv (p_freq e1) (p_prx e1) else Some (p_prx e1));
             stde_next_loop f pos del (set_prx e1 x (p_pcnt e1) (p_posn e1))
           else Some (true, e1)
  end.
Definition stde_next (pos : bool) (del : Z -> bool) (e : tde) : option (bool * tde) :=
  stde_next_loop (S (Z.to_nat (p_df e - p_count e))) pos del e.
(* 3145-3160 stpe_next *)
Definition tde_next (pos : bool) (del : Z -> bool) (e : tde) : option (bool * tde) :=
  if pos then
    do x <- skipv (p_pcnt e) (p_prx e);
    do r <- stde_next true del (set_prx e x (p_pcnt e) (p_posn e));
    let e1 := snd r in
    Some (fst r, if fst r then set_prx e1 (p_prx e1) (p_freq e1) 0 else set_prx e1 (p_prx e1) 0 0)
  else stde_next false del e.
(* 2970-2997 stde_read *)
Fixpoint stde_read (fuel : nat) (del : Z -> bool) (e : tde) (req : nat) : option (list (Z * Z) * tde) :=
  match fuel with
  | O => None
  | S f =>
      if (0 <? req)%nat && (p_count e <? p_df e) then
        do e1 <- step_doc e;
        if del (p_doc e1) then stde_read f del e1 req
        else do r <- stde_read f del e1 (req - 1); Some ((p_doc e1, p_freq e1) :: fst r, snd r)
      else Some ([], e)
  end.
(* 3170-3175 stpe_next_position *)
Definition next_position (e : tde) : option (Z * tde) :=
  if 0 <? p_pcnt e then
    match dec_int (p_prx e) with
    | POk d rest => Some (p_posn e + d, set_prx e rest (p_pcnt e - 1) (p_posn e + d))
    | _ => None end
  else Some (-1, set_prx e (p_prx e) (p_pcnt e - 1) (p_posn e)).
(* 3028-3046: the loop over the skip data *)
Record skst := mkSk { k_in : list Z; k_doc : Z; k_fptr : Z; k_pptr : Z; k_count : Z; k_ldoc : Z; k_lf : Z; k_lp : Z; k_n : Z }.
Definition read_skip : parser (Z * Z * Z) := get a <- dec_int; get b <- dec_uint; get c <- dec_uint; pret (a, b, c).
Fixpoint skip_scan (fuel : nat) (k num cdoc target : Z) (s : skst) : option skst :=
  match fuel with
  | O => None
  | S f =>
      if k_doc s <? target then
        let n := if negb (k_doc s =? 0) && (cdoc <=? k_doc s) then k_n s + k else k_n s in
        let s1 := mkSk (k_in s) (k_doc s) (k_fptr s) (k_pptr s) (k_count s) (k_doc s) (k_fptr s) (k_pptr s) n in
        if num <=? k_count s then Some s1
        else match read_skip (k_in s) with
             | POk (a, b, c) rest => skip_scan f k num cdoc target (mkSk rest (k_doc s + a) (k_fptr s + b) (k_pptr s + c) (k_count s + 1) (k_doc s) (k_fptr s) (k_pptr s) n)
             | _ => None end
      else Some s
  end.
Fixpoint next_until (fuel : nat) (pos : bool) (del : Z -> bool) (target : Z) (e : tde) : option (bool * tde) :=
  match fuel with
  | O => None
  | S f => do r <- tde_next pos del e;
           if fst r then if p_doc (snd r) <? target then next_until f pos del target (snd r) else Some r else Some r
  end.
(* 2999-3058: the first part of stde_skip_to, the use of the skip data *)
Definition skip_data (pos : bool) (frq prx : list Z) (k : Z) (e : tde) (target : Z) : option tde :=
  if (k <=? p_df e) && (p_doc e <? target) then
      let sk := if p_have e then match p_skip e with Some x => x | None => frq end else seek frq (p_sptr e) in
      let here := is_pos frq (p_frq e) in
      do s <- skip_scan (S (Z.to_nat (p_num e - p_scount e)) + 1) k (p_num e) (p_doc e) target
                (mkSk sk (p_sdoc e) (p_fptr e) (p_pptr e) (p_scount e) (p_sdoc e) here (-1) (-1 - Z.rem (p_count e) k));
      if here <? k_lf s then
        Some (mkTde (seek frq (k_lf s)) (if pos then seek prx (k_lp s) else p_prx e) (Some (k_in s)) (p_count e + k_n s) (p_df e) (k_ldoc s) (p_freq e)
                    (k_doc s) (k_count s) (p_num e) (k_fptr s) (k_pptr s) (p_sptr e) true (if pos then 0 else p_pcnt e) (p_posn e))
      else
        Some (mkTde (p_frq e) (p_prx e) (Some (k_in s)) (p_count e) (p_df e) (p_doc e) (p_freq e)
                    (k_doc s) (k_count s) (p_num e) (k_fptr s) (k_pptr s) (p_sptr e) true (p_pcnt e) (p_posn e))
    else Some e.
(* 2999-3065 stde_skip_to *)
Definition tde_skip_to (pos : bool) (frq prx : list Z) (k : Z) (del : Z -> bool) (e : tde) (target : Z) : option (bool * tde) :=
  do e1 <- skip_data pos frq prx k e target;
  next_until (S (Z.to_nat (p_df e1 - p_count e1))) pos del target e1.

(* ---------- the deletions of a reader (sr_delete_doc_i 4330-4340, sr_undelete_all_i 4342-4351); stde_new (3092-3116) keeps the pointer
   the reader has when the enumerator is made.  A cell holds the documents of a bit vector, None once it is freed. *)
Record srd := mkSrd { d_cells : list (option (list Z)); d_cur : option nat }.
Definition set_cell (c : list (option (list Z))) (i : nat) (v : option (list Z)) := firstn i c ++ v :: skipn (S i) c.
Definition sr_delete (r : srd) (doc : Z) : option srd :=
  match d_cur r with
  | None => Some (mkSrd (d_cells r ++ [Some [doc]]) (Some (length (d_cells r))))
  | Some i => match nth_error (d_cells r) i with
              | Some (Some l) => Some (mkSrd (set_cell (d_cells r) i (Some (doc :: l))) (Some i))
              | _ => None end
  end.
Definition sr_undelete_all (r : srd) : srd :=
  match d_cur r with None => r | Some i => mkSrd (set_cell (d_cells r) i None) None end.
(* stde->deleted_docs && bv_get(...) through the kept pointer *)
Definition kept_del (r : srd) (kept : option nat) : option (Z -> bool) :=
  match kept with
  | None => Some (fun _ => false)
  | Some i => match nth_error (d_cells r) i with Some (Some l) => Some (fun d => existsb (Z.eqb d) l) | _ => None end
  end.
