(* Model of iw_add_readers, c/src/index.c 6530-6811: the segments of other indexes are copied into the index of a writer, the numbers of their
   fields rewritten where they differ.  A reader is given by its FieldInfos and its segments.
   The deletions of a segment are in a file "seg_gen.del" (fn_for_generation 108-127); iw_cp_fields looks for "seg.del", which there never is
   (6550-6557), and the new SegmentInfo has no deletions (si_new 571): none are copied.
   None: an exception, undefined behaviour, or a loop that does not end. *)
From Verif Require Import Util Codec_Model Seg_Model Dict_Model Token_Model Post_Model Merge_Model Fields_Model Invert_Model Iw_Model.
Open Scope Z_scope.

(* store.c 624-634 is2os_copy_bytes of a whole file: the length becomes an int *)
Definition cp_file (f : list Z) : list Z := firstn (Z.to_nat (to_signed 32 (Z.of_nat (length f) mod 2 ^ 32))) f.

(* ---------- rewriting files *)
(* os_write_vint and os_write_voff_t between reads *)
Definition wr (x : Z) : parser (list Z) := fun bs => match enc_int x with Some b => POk b bs | None => PUB end.
Definition wr_off (x : Z) : parser (list Z) := fun bs => match enc_vint (x mod 2 ^ 64) with Some b => POk b bs | None => PUB end.
(* map[n] *)
Definition mapped (mp : list Z) (n : Z) : parser Z := fun bs => if n <? 0 then PUB else match nth_error mp (Z.to_nat n) with Some m => POk m bs | None => PUB end.
(* 6580-6586: the lengths of the values of a field; data_len is an int *)
Fixpoint cp_lens (n : nat) (data_len : Z) : parser (list Z * Z) :=
  match n with
  | O => pret ([], data_len)
  | S n' => get len <- dec_int; get b <- wr len;
            let data_len' := data_len + len + 1 in
            if (2 ^ 31 <=? data_len') || (data_len' <? - 2 ^ 31) then (fun _ => PUB)
            else get r <- cp_lens n' data_len'; pret (b ++ fst r, snd r)
  end.
(* 6573-6587: the fields of a document *)
Fixpoint cp_heads (mp : list Z) (n : nat) (data_len : Z) : parser (list Z * Z) :=
  match n with
  | O => pret ([], data_len)
  | S n' => get num <- dec_int; get num' <- mapped mp num; get size <- dec_int;
            get a <- wr num'; get b <- wr size;
            get l <- cp_lens (Z.to_nat size) data_len;
            get r <- cp_heads mp n' (snd l);
            pret (a ++ b ++ fst l ++ fst r, snd r)
  end.
(* 6601-6606: the index of the term vectors *)
Fixpoint cp_index (mp : list Z) (n : nat) : parser (list Z) :=
  match n with
  | O => pret []
  | S n' => get num <- dec_int; get num' <- mapped mp num; get size <- dec_int;
            get a <- wr num'; get b <- wr size; get r <- cp_index mp n'; pret (a ++ b ++ r)
  end.
(* 6592-6594: is_read_u64(fdx_in) + is_read_u32(fdx_in): C leaves open which is called first *)
Definition read_fdx (ltr : bool) : parser Z :=
  if ltr then get a <- lift dec_u64; get b <- lift dec_u32; pret (a + b) else get b <- lift dec_u32; get a <- lift dec_u64; pret (a + b).
(* 6563-6608: bs and xs are what is left of fdt_in and fdx_in; copying a negative number of bytes copies none (store.c 624-634) *)
Fixpoint cp_docs (ltr : bool) (mp : list Z) (n : nat) (len : Z) (bs xs out_t out_x : list Z) : option (list Z * list Z) :=
  match n with
  | O => Some (out_t, out_x)
  | S n' =>
      match (get cnt <- dec_int; get c <- wr cnt; get h <- cp_heads mp (Z.to_nat cnt) 0; get d <- take (Z.to_nat (snd h)); pret (c ++ fst h ++ d)) bs with
      | POk a bs1 =>
          match read_fdx ltr xs with
          | POk p xs1 =>
              let rest := to_signed 32 ((p - (len - Z.of_nat (length bs1))) mod 2 ^ 32) in
              match take (Z.to_nat rest) bs1 with
              | POk tv bs2 =>
                  let start := length out_t in
                  let out := out_t ++ a ++ tv in
                  match (get cnt <- dec_int; get c <- wr cnt; get r <- cp_index mp (Z.to_nat cnt); pret (c ++ r)) bs2 with
                  | POk ix bs3 => cp_docs ltr mp n' len bs3 xs1 (out ++ ix) (out_x ++ enc_64 (Z.of_nat start) ++ enc_32 (Z.of_nat (length out - start)))
                  | _ => None end
              | _ => None end
          | _ => None end
      | _ => None end
  end.
(* 6649-6662: the fields of the tfx file *)
Fixpoint cp_dict (mp : list Z) (n : nat) : parser (list Z) :=
  match n with
  | O => pret []
  | S n' =>
      get f <- dec_int; get f' <- mapped mp f; get a <- wr f';
      get ip <- dec_voff; get b <- wr_off ip; get p <- dec_voff; get c <- wr_off p;
      get ic <- dec_int; get d <- wr ic; get s <- dec_int; get e <- wr s;
      get r <- cp_dict mp n'; pret (a ++ b ++ c ++ d ++ e ++ r)
  end.
Definition cp_tfx (mp : list Z) (tfx : list Z) : option (list Z) :=
  match (get n <- lift dec_u32; get i <- dec_int; get a <- wr i; get k <- dec_int; get b <- wr k;
         get r <- cp_dict mp (Z.to_nat (to_signed 32 n)); pret (enc_32 n ++ a ++ b ++ r)) tfx with
  | POk b _ => Some b | _ => None end.

(* ---------- a segment, with the map or without *)
Section CP.
  Variable ltr : bool.
  (* 6530-6615 iw_cp_fields *)
  Definition cp_fields (mp : option (list Z)) (x : wseg) : option (list Z * list Z) :=
    match mp with
    | Some m => cp_docs ltr m (i_max (w_in x)) (Z.of_nat (length (w_fdt x))) (w_fdt x) (w_fdx x) [] []
    | None => Some (cp_file (w_fdt x), cp_file (w_fdx x)) end.
  (* 6617-6684 iw_cp_terms *)
  Definition cp_terms (mp : option (list Z)) (g : seg) : option seg :=
    do t <- match mp with Some m => cp_tfx m (f_tfx (g_dict g)) | None => Some (cp_file (f_tfx (g_dict g))) end;
    Some (mkSeg (cp_file (g_frq g)) (cp_file (g_prx g)) (mkDf (cp_file (f_tis (g_dict g))) (cp_file (f_tix (g_dict g))) t)).
  (* 6686-6721 iw_cp_norms: the fields of the reader that have norms, and a norm file *)
  Definition cp_norms (mp : option (list Z)) (fs : list field_info) (x : wseg) : list (nat * list Z) :=
    flat_map (fun p : nat * field_info =>
      if fi_has_norms (snd p) then
        match norm_file (fst p) x with
        | Some b => [(match mp with Some m => match nth_error m (fst p) with Some k => Z.to_nat k | None => O end | None => fst p end, cp_file b)]
        | None => [] end
      else []) (combine (seq 0 (length fs)) fs).
  Definition cp_segment (mp : option (list Z)) (fs : list field_info) (x : wseg) : option wseg :=
    do ff <- cp_fields mp x;
    do g <- cp_terms mp (i_seg (w_in x));
    do sf <- sfi_open (g_dict g);
    Some (mkWs (mkMin g sf (i_max (w_in x)) None) (fst ff) (snd ff) (cp_norms mp fs x) false false).

  (* 6763-6776: one FieldInfo of the reader; a new one has boost 1.0 (fi_new 284-300), the bits are joined *)
  Definition merge_field (fis : field_infos) (f : field_info) : field_infos :=
    match fis_get fis (fi_name f) with
    | Some (n, g) => mkFis (fis_store fis) (fis_index fis) (fis_tv fis) (upd (fis_fields fis) n (mkFi (fi_name g) (fi_boost g) (Z.lor (fi_bits g) (fi_bits f))))
    | None => mkFis (fis_store fis) (fis_index fis) (fis_tv fis) (fis_fields fis ++ [mkFi (fi_name f) 1065353216 (fi_bits f)])
    end.
  (* and whether a number differs; j is its number *)
  Fixpoint merge_fields (fis : field_infos) (fs : list field_info) (j : nat) : field_infos * bool :=
    match fs with
    | [] => (fis, false)
    | f :: t =>
        let fis' := merge_field fis f in
        let r := merge_fields fis' t (S j) in
        (fst r, match fis_get fis' (fi_name f) with Some (n, _) => negb (n =? j)%nat | None => true end || snd r)
    end.
  (* 6723-6739: fis_get_field_num *)
  Definition field_map (fis : field_infos) (fs : list field_info) : list Z := map (fun f => match fis_get fis (fi_name f) with Some (n, _) => Z.of_nat n | None => -1 end) fs.
  (* 6751-6784 iw_add_segment; the DocWriter shares the FieldInfos *)
  Definition iw_add_segment (sub : field_infos) (x : wseg) (s : iw) : option iw :=
    let '(fis, differ) := merge_fields (y_fis s) (fis_fields sub) O in
    do x' <- cp_segment (if differ then Some (field_map fis (fis_fields sub)) else None) (fis_fields sub) x;
    Some (mkIw fis (y_segs s ++ [x']) (y_mbd s) (match y_dw s with Some (cap, w) => Some (cap, mkDw (x_fw w) fis (x_tab w) (x_doc w) (x_offs w)) | None => None end)).
  (* 6786-6800 iw_add_segments, 6802-6824 iw_add_readers *)
  Fixpoint iw_add_segments (l : list (field_infos * wseg)) (s : iw) : option iw :=
    match l with [] => Some s | (sub, x) :: t => do s' <- iw_add_segment sub x s; iw_add_segments t s' end.
  Definition segments_of (rs : list (field_infos * list wseg)) : list (field_infos * wseg) := flat_map (fun r : field_infos * list wseg => map (fun x => (fst r, x)) (snd r)) rs.
  Definition iw_add_readers (cfg : config) (buf0 : list Z) (rs : list (field_infos * list wseg)) (s : iw) : option iw :=
    do s1 <- iw_optimize cfg buf0 s;
    do s2 <- iw_add_segments (segments_of rs) s1;
    iw_optimize cfg buf0 s2.
End CP.
