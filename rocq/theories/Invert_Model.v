(* Model of the DocumentWriter (c/src/index.c 5182-5262, 5335-5456, 5509-5694): documents are analysed, their terms collected in posting
   lists, their stored fields and term vectors written; dw_flush writes the postings and the norms of the segment.
   The hash tables (proved to be finite maps, C12) are association lists; a pointer to a posting list is its place in the list.
   The analyzer, the compressor and the byte of a norm are parameters.  num_terms is not bounded to an int.
   None: an exception, undefined behaviour, or a loop that does not end. *)
From Verif Require Import Util Codec_Model Strcmp Seg_Model Dict_Model Token_Model Post_Model Fields_Model.
Open Scope Z_scope.

(* a C string ends at its first NUL; the keys of the tables are C strings *)
Fixpoint ctext (s : list Z) : list Z := match s with [] => [] | b :: t => if b =? 0 then [] else b :: ctext t end.
(* PostingList (5182-5235): the bytes of the term, the postings in the order of the documents *)
Notation plist := (list Z * list post)%type.
Fixpoint find_key (key : list Z) (l : list (list Z)) (n : nat) : option nat :=
  match l with [] => None | k :: t => if seqb k key then Some n else find_key key t (S n) end.
(* pl_add_occ: behind the last position of the last posting *)
Fixpoint pl_add_occ (pos : Z) (l : list post) : list post :=
  match l with [] => [] | [(d, ps)] => [(d, ps ++ [pos])] | p :: t => p :: pl_add_occ pos t end.
Fixpoint pl_last (l : list post) : list Z := match l with [] => [] | [(_, ps)] => ps | _ :: t => pl_last t end.
Definition on_pl (i : nat) (f : plist -> plist) (l : list plist) : list plist := match nth_error l i with Some p => upd l i (f p) | None => l end.

(* curr_plists: the keys of this field of this document with the places of their lists; the lists of the field; dw->offsets (zero where never
   written) and dw->offsets_size *)
Record inv := mkInv { v_curr : list (list Z * nat); v_pls : list plist; v_offs : list (Z * Z); v_size : nat }.
(* 5520-5548 dw_add_posting *)
Definition dw_add_posting (doc : Z) (text : list Z) (pos : Z) (s : inv) : inv :=
  let key := ctext text in
  match find_key key (map fst (v_curr s)) O with
  | Some j => match nth_error (v_curr s) j with
              | Some (_, i) => mkInv (v_curr s) (on_pl i (fun p : plist => (fst p, pl_add_occ pos (snd p))) (v_pls s)) (v_offs s) (v_size s)
              | None => s end
  | None =>
      match find_key key (map (fun p : plist => ctext (fst p)) (v_pls s)) O with
      | Some i => mkInv (v_curr s ++ [(key, i)]) (on_pl i (fun p : plist => (fst p, snd p ++ [(doc, [pos])])) (v_pls s)) (v_offs s) (v_size s)
      | None => mkInv (v_curr s ++ [(key, length (v_pls s))]) (v_pls s ++ [(text, [(doc, [pos])])]) (v_offs s) (v_size s)
      end
  end.
(* 5550-5563 dw_add_offsets: offsets_capa, an int, is doubled until it is above pos *)
Fixpoint set_off (n : nat) (x : Z * Z) (l : list (Z * Z)) : list (Z * Z) :=
  match n, l with
  | O, [] => [x]
  | O, _ :: t => x :: t
  | S n', [] => (0, 0) :: set_off n' x []
  | S n', y :: t => y :: set_off n' x t
  end.
Definition dw_add_offsets (pos start end_ : Z) (s : inv) : option inv :=
  if 2 ^ 30 <=? pos then None else Some (mkInv (v_curr s) (v_pls s) (set_off (Z.to_nat pos) (start, end_) (v_offs s)) (S (Z.to_nat pos))).

Section DW.
  Variable ana : list Z -> list Z -> list token.             (* a_get_ts and the tokens of the stream: the field's name, the text *)
  Variable norm : field_info -> Z -> dfield -> Z -> Z.  (* 5676-5680: the byte, of the boosts of the field info, of the document (its bits) and of the field, and of the length *)
  Variable zip : list Z -> list Z.
  Variable fuel : nat.
  Variable max_field_length : Z.
  Variable max_buffered_docs : nat.

  (* 5588-5616: the tokens of one value; pos and num_terms *)
  Fixpoint inv_tokens (so : bool) (doc start : Z) (ts : list token) (pos num : Z) (s : inv) : option (Z * Z * inv) :=
    match ts with
    | [] => Some (pos, num, s)
    | t :: r =>
        let p0 := pos + t_inc t in
        if (2 ^ 31 <=? p0) || (p0 <? - 2 ^ 31) then None
        else
          let p := if so && (p0 <? 0) then 0 else p0 in
          let s1 := dw_add_posting doc (t_text t) p s in
          do s2 <- (if so then dw_add_offsets p (start + Z.of_nat (t_start t)) (start + Z.of_nat (t_end t)) s1 else Some s1);
          if max_field_length <=? num then Some (p, num + 1, s2) else inv_tokens so doc start r p (num + 1) s2
    end.
  (* 5583-5620: the analyzer is given a C string, start_offset grows by the length of the value *)
  Fixpoint inv_values (so : bool) (doc : Z) (name : list Z) (vs : list (list Z)) (start pos num : Z) (s : inv) : option (Z * inv) :=
    match vs with
    | [] => Some (num, s)
    | v :: r => do x <- inv_tokens so doc start (ana name (ctext v)) pos num s;
                let '(p, n, s') := x in inv_values so doc name r (start + Z.of_nat (length v) + 1) p n s'
    end.
  (* 5622-5642: a field that is not tokenized *)
  Definition cut_value (v : list Z) : list Z := if (MAX_WORD_SIZE <? length v)%nat then firstn (MAX_WORD_SIZE - 1) v else v.
  Fixpoint inv_raw (so : bool) (doc : Z) (vs : list (list Z)) (i : nat) (start : Z) (s : inv) : option (Z * inv) :=
    match vs with
    | [] => Some (Z.of_nat i, s)
    | v :: r =>
        let s1 := dw_add_posting doc (cut_value v) (Z.of_nat i) s in
        do s2 <- (if so then dw_add_offsets (Z.of_nat i) start (start + Z.of_nat (length v)) s1 else Some s1);
        inv_raw so doc r (S i) (start + Z.of_nat (length v) + 1) s2
    end.
  (* FieldInverter: what fld_inv_new copies from the FieldInfo, the norms, the lists *)
  Record finv := mkFv { f_tok : bool; f_tv : bool; f_so : bool; f_norms : option (list Z); f_pls : list plist }.
  (* 5246-5262 fld_inv_new *)
  Definition fld_inv_new (f : field_info) : finv :=
    mkFv (fi_is_tokenized f) (fi_store_term_vector f) (fi_store_offsets f) (if fi_has_norms f then Some (repeat 0 max_buffered_docs) else None) [].
  (* 5565-5646 dw_invert_field: the length of the field *)
  Definition dw_invert_field (v : finv) (doc : Z) (df : dfield) (s : inv) : option (Z * inv) :=
    if f_tok v then inv_values (f_so v) doc (df_name df) (df_data df) 0 (-1) 0 s else inv_raw (f_so v) doc (df_data df) O 0 s.

  (* 5350-5368 dw_sort_postings, by the C string of the term *)
  Fixpoint ins_pl (p : plist) (l : list plist) : list plist :=
    match l with [] => [p] | q :: t => if sleb (ctext (fst p)) (ctext (fst q)) then p :: l else q :: ins_pl p t end.
  Definition sort_pls (l : list plist) : list plist := fold_right ins_pl [] l.
  Definition pick (pls : list plist) (c : list (list Z * nat)) : list plist :=
    flat_map (fun x : list Z * nat => match nth_error pls (snd x) with Some p => [p] | None => [] end) c.
  (* what fw_add_postings gets: the terms of the document and the positions of their last postings *)
  Definition tv_terms (s : inv) : list (list Z * list Z) := map (fun p : plist => (fst p, pl_last (snd p))) (sort_pls (pick (v_pls s) (v_curr s))).

  Record dw := mkDw { x_fw : fw; x_fis : field_infos; x_tab : list (nat * finv); x_doc : nat; x_offs : list (Z * Z) }.
  Definition dw_open (fis : field_infos) : dw := mkDw fw_open fis [] O [].
  Fixpoint tab_get (n : nat) (l : list (nat * finv)) : option finv := match l with [] => None | (k, v) :: t => if (k =? n)%nat then Some v else tab_get n t end.
  Fixpoint tab_set (n : nat) (v : finv) (l : list (nat * finv)) : list (nat * finv) :=
    match l with [] => [(n, v)] | (k, w) :: t => if (k =? n)%nat then (n, v) :: t else (k, w) :: tab_set n v t end.
  (* the body of the loop 5660-5690; ZEROSET_N of the first offsets_size offsets *)
  Definition dw_field (d : document) (s : dw) (df : dfield) : option dw :=
    do f <- fis_get (x_fis s) (df_name df);
    if fi_is_indexed (snd f) then
      let v := match tab_get (fst f) (x_tab s) with Some v => v | None => fld_inv_new (snd f) end in
      do r <- dw_invert_field v (Z.of_nat (x_doc s)) df (mkInv [] (f_pls v) (x_offs s) O);
      let '(len, i) := r in
      do w <- (if f_tv v then fw_add_postings (x_fw s) (fst f) (snd f) (tv_terms i) (firstn (v_size i) (v_offs i)) else Some (x_fw s));
      do ns <- (match f_norms v with
                | None => Some None
                | Some l => if (x_doc s <? length l)%nat then Some (Some (upd l (x_doc s) (norm (snd f) (d_boost d) df len))) else None end);
      Some (mkDw w (x_fis s) (tab_set (fst f) (mkFv (f_tok v) (f_tv v) (f_so v) ns (v_pls i)) (x_tab s)) (x_doc s) (repeat (0, 0) (v_size i) ++ skipn (v_size i) (v_offs i)))
    else Some s.
  Fixpoint dw_fields (d : document) (s : dw) (l : list dfield) : option dw :=
    match l with [] => Some s | df :: t => do s' <- dw_field d s df; dw_fields d s' t end.
  (* 5648-5694 dw_add_doc *)
  Definition dw_add_doc (s : dw) (d : document) : option dw :=
    do r <- fw_add_doc zip fuel (x_fis s) (x_fw s) d;
    do s1 <- dw_fields d (mkDw (fst r) (snd r) (x_tab s) (x_doc s) (x_offs s)) (d_fields d);
    do w <- fw_write_tv_index (x_fw s1);
    Some (mkDw w (x_fis s1) (x_tab s1) (S (x_doc s1)) (x_offs s1)).
  Fixpoint dw_add_docs (s : dw) (l : list document) : option dw :=
    match l with [] => Some s | d :: t => do s' <- dw_add_doc s d; dw_add_docs s' t end.

  (* 5399-5413: the fields in the order of their numbers, and the norms of those that do not omit them; the array of a field inverter without
     norms is not initialised *)
  Definition fields_to_write (s : dw) : list (nat * field_info * finv) :=
    flat_map (fun x : nat * field_info => if fi_is_indexed (snd x) then match tab_get (fst x) (x_tab s) with Some v => [(x, v)] | None => [] end else [])
             (combine (seq 0 (length (fis_fields (x_fis s)))) (fis_fields (x_fis s))).
  Definition inverted (s : dw) : list (Z * list plist) := map (fun x => (Z.of_nat (fst (fst x)), sort_pls (f_pls (snd x)))) (fields_to_write s).
  Fixpoint norm_files (n : nat) (l : list (nat * field_info * finv)) : option (list (nat * list Z)) :=
    match l with
    | [] => Some []
    | (x, v) :: t =>
        do r <- norm_files n t;
        if fi_omit_norms (snd x) then Some r
        else match f_norms v with Some b => if (length b <? n)%nat then None else Some ((fst x, firstn n b) :: r) | None => None end
    end.
  (* 5376-5450 dw_flush: the files of the terms and postings, and the norms *)
  Definition dw_write (interval skip : Z) (s : dw) : option (seg * list (nat * list Z)) :=
    do ns <- norm_files (x_doc s) (fields_to_write s);
    do g <- dw_flush interval skip (inverted s);
    Some (g, ns).
End DW.
