(* Model of stored fields and term vectors: FieldInfos (c/src/index.c 219-403, index.h 98-132), FieldsWriter (1800-2013), FieldsReader
   (1508-1798), the zipped fields (1283-1380, 1839-1895; bzlib, the default) and LazyDocField (1388-1412).
   Files are lists of bytes, a stream is the list of the bytes behind its position.  None: an exception, undefined behaviour, or a loop that
   does not end.  The library that compresses is a pair of functions: zip gives the whole compressed stream, unzip takes one. *)
From Verif Require Import Util Codec_Model Seg_Model Dict_Model.
Open Scope Z_scope.

(* ---------- FieldInfo: the bits *)
Definition fi_is_stored (f : field_info) : bool := Z.testbit (fi_bits f) 0.
Definition fi_is_compressed (f : field_info) : bool := Z.testbit (fi_bits f) 1.
Definition fi_is_indexed (f : field_info) : bool := Z.testbit (fi_bits f) 2.
Definition fi_is_tokenized (f : field_info) : bool := Z.testbit (fi_bits f) 3.
Definition fi_omit_norms (f : field_info) : bool := Z.testbit (fi_bits f) 4.
Definition fi_store_term_vector (f : field_info) : bool := Z.testbit (fi_bits f) 5.
Definition fi_store_positions (f : field_info) : bool := Z.testbit (fi_bits f) 6.
Definition fi_store_offsets (f : field_info) : bool := Z.testbit (fi_bits f) 7.
Definition fi_has_norms (f : field_info) : bool := fi_is_indexed f && negb (fi_omit_norms f).
(* 219-273 fi_set_store, fi_set_index, fi_set_term_vector *)
Definition store_bits (s : Z) : Z := if s =? 1 then 1 else if s =? 2 then 3 else 0.
Definition index_bits (i : Z) : Z := if i =? 3 then 12 else if i =? 1 then 4 else if i =? 7 then 28 else if i =? 5 then 20 else 0.
Definition tv_bits (t : Z) : Z := if t =? 1 then 32 else if t =? 3 then 96 else if t =? 5 then 160 else if t =? 7 then 224 else 0.
(* 284-300 fi_new with the parameters of the FieldInfos, which fis_new has checked; the boost is 1.0f *)
Definition fi_default (fis : field_infos) (name : list Z) : field_info :=
  mkFi name 1065353216 (Z.lor (Z.lor (store_bits (fis_store fis)) (index_bits (fis_index fis))) (tv_bits (fis_tv fis))).
(* 369-393: symbols are interned, comparing them compares the names; the number is the place *)
Definition same_name (a b : list Z) : bool := if list_eq_dec Z.eq_dec a b then true else false.
Fixpoint field_at (l : list field_info) (name : list Z) (n : nat) : option (nat * field_info) :=
  match l with [] => None | f :: t => if same_name (fi_name f) name then Some (n, f) else field_at t name (S n) end.
Definition fis_get (fis : field_infos) (name : list Z) : option (nat * field_info) := field_at (fis_fields fis) name O.
Definition fis_get_or_add (fis : field_infos) (name : list Z) : field_infos :=
  match fis_get fis name with
  | Some _ => fis
  | None => mkFis (fis_store fis) (fis_index fis) (fis_tv fis) (fis_fields fis ++ [fi_default fis name])
  end.

(* ---------- documents (document.h); the floats are their bits *)
Record dfield := mkDfd { df_name : list Z; df_boost : Z; df_data : list (list Z) }.
Record document := mkDoc { d_boost : Z; d_fields : list dfield }.

(* ---------- zipped bytes *)
Definition ZIP_BUFFER_SIZE : nat := Z.to_nat 16348.
(* 1868-1895 os_write_zipped_bytes: avail is avail_out, buf the bytes in out_buffer, left what the library has not handed out.  avail_out and
   next_out are set before the loop only: once the buffer is full it stays full *)
Fixpoint zip_loop (fuel : nat) (avail : nat) (buf left out : list Z) : option (list Z) :=
  match fuel with
  | O => None
  | S f =>
      let n := Nat.min avail (length left) in
      let buf' := buf ++ firstn n left in
      let avail' := (avail - n)%nat in
      let out' := out ++ firstn (ZIP_BUFFER_SIZE - avail') buf' in
      if (avail' =? 0)%nat then zip_loop f avail' buf' (skipn n left) out' else Some out'
  end.
(* 1354-1374: the inner loop of is_read_zipped_bytes, avail_out is set once for every chunk of the input; out is buf_out *)
Fixpoint unzip_loop (fuel : nat) (avail : nat) (left out : list Z) : option (list Z) :=
  match fuel with
  | O => None
  | S f =>
      let n := Nat.min avail (length left) in
      let avail' := (avail - n)%nat in
      let out' := out ++ firstn n left ++ repeat 0 (ZIP_BUFFER_SIZE - avail' - n) in
      if (avail' =? 0)%nat then unzip_loop f avail' (skipn n left) out' else Some out'
  end.

Section ZIP.
  Variable zip : list Z -> list Z.
  Variable unzip : list Z -> option (list Z).
  Variable fuel : nat.                                   (* rounds of these loops *)

  Definition os_write_zipped (data : list Z) : option (list Z) := zip_loop fuel ZIP_BUFFER_SIZE [] (zip data) [].
  (* 1337-1380: zip_len bytes are read into a buffer of ZIP_BUFFER_SIZE *)
  Definition is_read_zipped (zip_len : nat) : parser (list Z) := fun bs =>
    if (ZIP_BUFFER_SIZE <? zip_len)%nat then PUB
    else match take zip_len bs with
         | POk b rest => match unzip b with
                         | Some d => match unzip_loop fuel ZIP_BUFFER_SIZE d [] with Some x => POk x rest | None => PUB end
                         | None => PArg end
         | PEof => PEof | PArg => PArg | PUB => PUB
         end.

  (* ---------- FieldsWriter *)
  Record fw := mkFw { fw_fdt : list Z; fw_fdx : list Z; fw_start : nat; fw_tv : list (Z * Z) }.
  (* 1808-1828 fw_open *)
  Definition fw_open : fw := mkFw [] [] O [].
  (* 1918-1943: the lengths of the values, and the values, of one field *)
  Fixpoint enc_values (comp : bool) (data : list (list Z)) : option (list Z * list Z) :=
    match data with
    | [] => Some ([], [])
    | d :: t =>
        do b <- (if comp then os_write_zipped d else Some (d ++ [32]));
        do a <- enc_int (Z.of_nat (length b) - 1);
        do r <- enc_values comp t;
        Some (a ++ fst r, b ++ snd r)
    end.
  (* what goes to fdt_out and what to the buffer *)
  Fixpoint enc_stored (fis : field_infos) (l : list dfield) : option (list Z * list Z) :=
    match l with
    | [] => Some ([], [])
    | df :: t =>
        do f <- fis_get fis (df_name df);
        if fi_is_stored (snd f) then
          do a <- enc_int (Z.of_nat (fst f));
          do b <- enc_int (Z.of_nat (length (df_data df)));
          do v <- enc_values (fi_is_compressed (snd f)) (df_data df);
          do r <- enc_stored fis t;
          Some (a ++ b ++ fst v ++ fst r, snd v ++ snd r)
        else enc_stored fis t
    end.
  Definition is_stored (fis : field_infos) (df : dfield) : bool := match fis_get fis (df_name df) with Some f => fi_is_stored (snd f) | None => false end.
  (* 1897-1947 fw_add_doc, and the FieldInfos with the new fields *)
  Definition add_fields (fis : field_infos) (d : document) : field_infos := fold_left (fun s df => fis_get_or_add s (df_name df)) (d_fields d) fis.
  Definition fw_add_doc (fis : field_infos) (w : fw) (d : document) : option (fw * field_infos) :=
    let fis' := add_fields fis d in
    let start := length (fw_fdt w) in
    do c <- enc_int (Z.of_nat (length (filter (is_stored fis') (d_fields d))));
    do r <- enc_stored fis' (d_fields d);
    Some (mkFw (fw_fdt w ++ c ++ fst r ++ snd r) (fw_fdx w ++ enc_64 (Z.of_nat start)) start [], fis').
  (* 1964-2013 fw_add_postings: the terms in order with the positions in the document; the offsets *)
  Fixpoint enc_positions (last : Z) (ps : list Z) : option (list Z) :=
    match ps with [] => Some [] | p :: t => do a <- enc_int (p - last); do b <- enc_positions p t; Some (a ++ b) end.
  Fixpoint enc_terms (positions : bool) (last : list Z) (l : list (list Z * list Z)) : option (list Z) :=
    match l with
    | [] => Some []
    | (term, ps) :: t =>
        let start := string_diff last term in
        do a <- enc_int (Z.of_nat start);
        do b <- enc_int (Z.of_nat (length term - start));
        do c <- enc_int (Z.of_nat (length ps));
        do p <- (if positions then enc_positions 0 ps else Some []);
        do r <- enc_terms positions term t;
        Some (a ++ b ++ skipn start term ++ c ++ p ++ r)
    end.
  Fixpoint enc_offsets (last_end : Z) (l : list (Z * Z)) : option (list Z) :=
    match l with
    | [] => Some []
    | (s, e) :: t =>
        do a <- enc_vint ((s - last_end) mod 2 ^ 64);
        do b <- enc_vint ((e - s) mod 2 ^ 64);
        do r <- enc_offsets e t;
        Some (a ++ b ++ r)
    end.
  Definition enc_tv (f : field_info) (l : list (list Z * list Z)) (offs : list (Z * Z)) : option (list Z) :=
    do a <- enc_int (Z.of_nat (length l));
    do b <- enc_terms (fi_store_positions f) [] l;
    do c <- (if fi_store_offsets f then do n <- enc_int (Z.of_nat (length offs)); do o <- enc_offsets 0 offs; Some (n ++ o) else Some []);
    Some (a ++ b ++ c).
  Definition fw_add_postings (w : fw) (num : nat) (f : field_info) (l : list (list Z * list Z)) (offs : list (Z * Z)) : option fw :=
    do b <- enc_tv f l offs;
    Some (mkFw (fw_fdt w ++ b) (fw_fdx w) (fw_start w) (fw_tv w ++ [(Z.of_nat num, Z.of_nat (length b))])).
  (* 1949-1962 fw_write_tv_index: from the last to the first *)
  Definition enc_tv_entry (x : Z * Z) : option (list Z) := do a <- enc_int (fst x); do b <- enc_int (snd x); Some (a ++ b).
  Definition fw_write_tv_index (w : fw) : option fw :=
    do n <- enc_int (Z.of_nat (length (fw_tv w)));
    do b <- enc_list enc_tv_entry (rev (fw_tv w));
    Some (mkFw (fw_fdt w ++ n ++ b) (fw_fdx w ++ enc_32 (Z.of_nat (length (fw_fdt w) - fw_start w))) (fw_start w) (fw_tv w)).

  (* a document with its term vectors: the part of dw_add_doc (5648-5694) that writes to the FieldsWriter *)
  Definition tv_in := (nat * list (list Z * list Z) * list (Z * Z))%type.
  Fixpoint fw_tvs (fis : field_infos) (w : fw) (l : list tv_in) : option fw :=
    match l with
    | [] => Some w
    | (num, ts, os) :: r => do f <- nth_error (fis_fields fis) num; do w' <- fw_add_postings w num f ts os; fw_tvs fis w' r
    end.
  Definition fw_put (fis : field_infos) (w : fw) (x : document * list tv_in) : option (fw * field_infos) :=
    do r <- fw_add_doc fis w (fst x);
    do w1 <- fw_tvs (snd r) (fst r) (snd x);
    do w2 <- fw_write_tv_index w1;
    Some (w2, snd r).
  Fixpoint fw_puts (fis : field_infos) (w : fw) (l : list (document * list tv_in)) : option (fw * field_infos) :=
    match l with [] => Some (w, fis) | x :: t => do r <- fw_put fis w x; fw_puts (snd r) (fst r) t end.

  (* ---------- FieldsReader: the files and the FieldInfos *)
  (* 1578-1594: where the document begins: doc_num * FIELDS_IDX_PTR_SIZE is an int *)
  Definition FIELDS_IDX_PTR_SIZE : Z := 12.
  Definition doc_start (fdx : list Z) (n : nat) : option Z :=
    let p := Z.of_nat n * FIELDS_IDX_PTR_SIZE in
    if 2 ^ 31 <=? p then None else match dec_u64 (seek fdx p) with ROk v _ => Some (to_signed 64 v) | _ => None end.
  (* 1591-1603 and 1642-1650: the fields with the lengths of the values *)
  Definition head := (field_info * list Z)%type.
  Definition dec_head (fis : field_infos) : parser head :=
    get num <- dec_int; get size <- dec_int;
    if num <? 0 then (fun _ => PUB)
    else match nth_error (fis_fields fis) (Z.to_nat num) with
         | None => fun _ => PUB
         | Some f => get lens <- dec_n dec_int (Z.to_nat size); pret (f, lens)
         end.
  Definition dec_heads (fis : field_infos) : parser (list head) := get cnt <- dec_int; dec_n (dec_head fis) (Z.to_nat cnt).
  (* 1556-1576, 1604-1619: the values *)
  Definition dec_value (comp : bool) (len : Z) : parser (list Z) :=
    if len <? 0 then (fun _ => PUB)
    else if comp then is_read_zipped (Z.to_nat len + 1)
    else get b <- take (Z.to_nat len + 1); pret (firstn (Z.to_nat len) b).
  Fixpoint dec_values (comp : bool) (lens : list Z) : parser (list (list Z)) :=
    match lens with [] => pret [] | n :: t => get d <- dec_value comp n; get r <- dec_values comp t; pret (d :: r) end.
  Fixpoint dec_data (hs : list head) : parser (list (list Z * list (list Z))) :=
    match hs with [] => pret [] | (f, lens) :: t => get d <- dec_values (fi_is_compressed f) lens; get r <- dec_data t; pret ((fi_name f, d) :: r) end.
  Fixpoint has_dup (l : list (list Z)) : bool := match l with [] => false | x :: t => existsb (same_name x) t || has_dup t end.
  (* 1578-1622 fr_get_doc; doc_add_field raises when there is a field of the name already *)
  Definition fr_get_doc (fis : field_infos) (fdt fdx : list Z) (n : nat) : option (list (list Z * list (list Z))) :=
    do pos <- doc_start fdx n;
    match (get hs <- dec_heads fis; if has_dup (map (fun h : head => fi_name (fst h)) hs) then (fun _ => PArg) else dec_data hs) (seek fdt pos) with
    | POk d _ => Some d | _ => None end.

  (* 1624-1666 fr_get_lazy_doc: for every value where it begins, its length; start is the relative position *)
  Record lazy := mkLz { z_name : list Z; z_comp : bool; z_data : list (Z * Z); z_len : Z }.
  Fixpoint starts_of (start : Z) (lens : list Z) : list (Z * Z) := match lens with [] => [] | n :: t => (start, n) :: starts_of (start + 1 + n) t end.
  Fixpoint lazy_of (start : Z) (hs : list head) : list lazy :=
    match hs with
    | [] => []
    | (f, lens) :: t =>
        let e := start + fold_right (fun n z => 1 + n + z) 0 lens in
        mkLz (fi_name f) (fi_is_compressed f) (starts_of start lens) (e - start - 1) :: lazy_of e t
    end.
  Definition fr_get_lazy (fis : field_infos) (fdt fdx : list Z) (n : nat) : option (list lazy) :=
    do pos <- doc_start fdx n;
    match dec_heads fis (seek fdt pos) with
    | POk hs rest =>
        let base := Z.of_nat (length fdt - length rest) in
        Some (map (fun z => mkLz (z_name z) (z_comp z) (map (fun d : Z * Z => (fst d + base, snd d)) (z_data z)) (z_len z)) (lazy_of 0 hs))
    | _ => None end.
  (* 1388-1412 lazy_df_get_data *)
  Definition lazy_get (fdt : list Z) (z : lazy) (i : nat) : option (list Z) :=
    do d <- nth_error (z_data z) i;
    match dec_value (z_comp z) (snd d) (seek fdt (fst d)) with POk b _ => Some b | _ => None end.
  (* 1414-1467 lazy_df_get_bytes; the bytes copied by the loop over the values of a compressed field *)
  Fixpoint zcopy (texts : list (list Z)) (cur_start start len : nat) : list Z :=
    match texts with
    | [] => []
    | t :: r =>
        let cur_end := (cur_start + length t)%nat in
        if (start <? cur_end)%nat then
          let copy_start := (if cur_start <? start then start - cur_start else 0)%nat in
          let copy_len := (cur_end - cur_start - copy_start)%nat in
          if (len <=? copy_len)%nat then firstn len (skipn copy_start t)
          else firstn copy_len (skipn copy_start t) ++ 32 ::
               (if (len - copy_len - 1 =? 0)%nat then [] else zcopy r (cur_end + 1) start (len - copy_len - 1))
        else zcopy r (cur_end + 1) start len
    end.
  Definition lazy_bytes (fdt : list Z) (z : lazy) (start len : nat) : option (list Z) :=
    do texts <- (if z_comp z then fold_right (fun i r => do a <- lazy_get fdt z i; do l <- r; Some (a :: l)) (Some []) (seq 0 (length (z_data z))) else Some []);
    let total := if z_comp z then fold_right (fun t n => Z.of_nat (length t) + 1 + n) 0 texts - 1 else z_len z in
    if (total <=? Z.of_nat start) || (len =? 0)%nat || (total <? Z.of_nat (start + len)) then None
    else if z_comp z then Some (zcopy texts 0 start len)
    else do d <- nth_error (z_data z) 0;
         match take len (seek fdt (fst d + Z.of_nat start)) with POk b _ => Some b | _ => None end.

  (* ---------- term vectors *)
  Record tvec := mkTv { v_field : list Z; v_terms : list (list Z * Z * option (list Z)); v_offs : option (list (Z * Z)) }.
  Fixpoint dec_positions (n : nat) (pos : Z) : parser (list Z) :=
    match n with O => pret [] | S n' => get d <- dec_int; get r <- dec_positions n' (pos + d); pret (pos + d :: r) end.
  (* 1687-1713: buffer has MAX_WORD_SIZE bytes; cur is what is in it *)
  Fixpoint dec_terms (positions : bool) (n : nat) (cur : list Z) : parser (list (list Z * Z * option (list Z))) :=
    match n with
    | O => pret []
    | S n' =>
        get term <- term_read cur;
        get freq <- dec_int;
        get ps <- (if positions then get l <- dec_positions (Z.to_nat freq) 0; pret (Some l) else pret None);
        get r <- dec_terms positions n' term;
        pret ((term, freq, ps) :: r)
    end.
  Fixpoint dec_offsets (n : nat) (offset : Z) : parser (list (Z * Z)) :=
    match n with
    | O => pret []
    | S n' => get a <- dec_voff; get b <- dec_voff; get r <- dec_offsets n' (offset + a + b); pret ((offset + a, offset + a + b) :: r)
    end.
  (* 1668-1726 fr_read_term_vector *)
  Definition dec_tv (f : field_info) : parser tvec :=
    get n <- dec_int;
    if 0 <? n then
      get ts <- dec_terms (fi_store_positions f) (Z.to_nat n) [];
      get os <- (if fi_store_offsets f then get k <- dec_int; get l <- dec_offsets (Z.to_nat k) 0; pret (Some l) else pret None);
      pret (mkTv (fi_name f) ts os)
    else pret (mkTv (fi_name f) [] None).
  (* fr->size, and the place of the index of the term vectors *)
  Definition fr_size (fdx : list Z) : nat := (length fdx / 12)%nat.
  Definition tv_index (fdx : list Z) (n : nat) : option Z :=
    let p := Z.of_nat n * FIELDS_IDX_PTR_SIZE in
    if 2 ^ 31 <=? p then None
    else match (get a <- lift dec_u64; get b <- lift dec_u32; pret (a + b)) (seek fdx p) with POk x _ => Some x | _ => None end.
  (* 1769-1798 fr_get_field_tv: the entries of the index until the field is found; NULL is Some None *)
  Fixpoint find_tv (n : nat) (want : Z) (offset : Z) : parser (option Z) :=
    match n with
    | O => pret None
    | S n' => get num <- dec_int; get size <- dec_int; if num =? want then pret (Some (offset + size)) else find_tv n' want (offset + size)
    end.
  Definition fr_get_field_tv (fis : field_infos) (fdt fdx : list Z) (n : nat) (num : nat) : option (option tvec) :=
    if (n <? fr_size fdx)%nat then
      do p <- tv_index fdx n;
      match (get cnt <- dec_int; find_tv (Z.to_nat cnt) (Z.of_nat num) 0) (seek fdt p) with
      | POk (Some off) _ =>
          do f <- nth_error (fis_fields fis) num;
          match dec_tv f (seek fdt (p - off)) with POk v _ => Some (Some v) | _ => None end
      | POk None _ => Some None
      | _ => None end
    else Some None.
  (* 1728-1767 fr_get_tv: all of them in the order of the document; the result is a table by the name of the field *)
  Fixpoint dec_tvs (fis : field_infos) (nums : list Z) : parser (list tvec) :=
    match nums with
    | [] => pret []
    | x :: t => if x <? 0 then (fun _ => PUB)
                else match nth_error (fis_fields fis) (Z.to_nat x) with
                     | None => fun _ => PUB
                     | Some f => get v <- dec_tv f; get r <- dec_tvs fis t; pret (v :: r) end
    end.
  Definition dec_pair : parser (Z * Z) := get a <- dec_int; get b <- dec_int; pret (a, b).
  Definition fr_get_tv (fis : field_infos) (fdt fdx : list Z) (n : nat) : option (list tvec) :=
    if (n <? fr_size fdx)%nat then
      do p <- tv_index fdx n;
      match (get cnt <- dec_int; dec_n dec_pair (Z.to_nat cnt)) (seek fdt p) with
      | POk l _ =>
          match dec_tvs fis (rev (map fst l)) (seek fdt (p - fold_right (fun x z => snd x + z) 0 l)) with POk r _ => Some r | _ => None end
      | _ => None end
    else Some [].
End ZIP.
