(* What the documents given to an index writer mean: which terms every field of every document has at which positions, the inverted index
   of that, its term vectors and its norms. *)
From Verif Require Import Util Strcmp Seg_Model Dict_Spec Token_Model Post_Model Post_Spec Mte_Spec Fields_Model Fields_Spec Invert_Model.
Open Scope Z_scope.

(* an occurrence of a term: its bytes, its position, its offsets in the text *)
Notation occ := (list Z * Z * (Z * Z))%type.
Definition o_text (o : occ) : list Z := fst (fst o).
Definition o_pos (o : occ) : Z := snd (fst o).

(* the positions are the sums of the increments, less one *)
Fixpoint place (pos : Z) (l : list (token * Z)) : list occ :=
  match l with
  | [] => []
  | (t, start) :: r => (t_text t, pos + t_inc t, (start + Z.of_nat (t_start t), start + Z.of_nat (t_end t))) :: place (pos + t_inc t) r
  end.
(* the values lie behind each other with one place between them *)
Fixpoint with_start (start : Z) (l : list (list Z * list token)) : list (token * Z) :=
  match l with [] => [] | (v, ts) :: r => map (fun t => (t, start)) ts ++ with_start (start + Z.of_nat (length v) + 1) r end.
(* the tokens that are taken when n were taken before: of every value at least one, all in all max + 1 if one value has them *)
Fixpoint kept (max n : Z) (l : list (list token)) : list (list token) :=
  match l with [] => [] | ts :: r => let k := firstn (Z.to_nat (Z.max 1 (max + 1 - n))) ts in k :: kept max (n + Z.of_nat (length k)) r end.
(* values that are terms *)
Fixpoint raw_occs (i : nat) (start : Z) (vs : list (list Z)) : list occ :=
  match vs with [] => [] | v :: r => (cut_value v, Z.of_nat i, (start, start + Z.of_nat (length v))) :: raw_occs (S i) (start + Z.of_nat (length v) + 1) r end.
(* positions of a term *)
Definition at_ (t : list Z) (os : list occ) : list Z := map o_pos (filter (fun o => seqb (o_text o) t) os).
Definition distinct (l : list (list Z)) : list (list Z) := fold_right insert [] l.
(* the offsets of the last occurrence at a position *)
Definition off_at (os : list occ) (p : Z) : Z * Z := fold_left (fun r o => if o_pos o =? p then snd o else r) os (0, 0).
Definition offs_of (os : list occ) : list (Z * Z) :=
  map (fun p => off_at os (Z.of_nat p)) (seq 0 (Z.to_nat (fold_left (fun _ o => o_pos o + 1) os 0))).

(* the FieldInfos after the documents *)
Definition fis_of (fis : field_infos) (docs : list document) : field_infos := fold_left add_fields docs fis.

Section SPEC.
  Variable ana : list Z -> list Z -> list token.
  Variable norm : field_info -> Z -> dfield -> Z -> Z.
  Variable max : Z.

  Definition occs_of (f : field_info) (df : dfield) : list occ :=
    if fi_is_tokenized f then place (-1) (with_start 0 (combine (df_data df) (kept max 0 (map (fun v => ana (df_name df) (ctext v)) (df_data df)))))
    else raw_occs O 0 (df_data df).
  (* field number n of a document, if it is indexed *)
  Definition is_field (F : field_infos) (n : nat) (df : dfield) : bool :=
    match fis_get F (df_name df) with Some (m, f) => (m =? n)%nat && fi_is_indexed f | None => false end.
  Definition field_of (F : field_infos) (n : nat) (d : document) : option dfield := find (is_field F n) (d_fields d).
  Definition occs_in (F : field_infos) (n : nat) (d : document) : list occ :=
    match field_of F n d, nth_error (fis_fields F) n with Some df, Some f => occs_of f df | _, _ => [] end.
  (* the documents with the term, the ith being the first *)
  Definition post_at (i : nat) (ps : list Z) : list post := match ps with [] => [] | _ => [(Z.of_nat i, ps)] end.
  Fixpoint posts (F : field_infos) (n : nat) (t : list Z) (i : nat) (docs : list document) : list post :=
    match docs with [] => [] | d :: r => post_at i (at_ t (occs_in F n d)) ++ posts F n t (S i) r end.
  Definition terms_in_field (F : field_infos) (n : nat) (docs : list document) : list (list Z) := distinct (map o_text (flat_map (occs_in F n) docs)).
  Definition has_field (F : field_infos) (n : nat) (d : document) : bool := match field_of F n d with Some _ => true | None => false end.
  Definition index_of (F : field_infos) (docs : list document) : list (Z * list (list Z * list post)) :=
    map (fun n => (Z.of_nat n, map (fun t => (t, posts F n t O docs)) (terms_in_field F n docs)))
        (filter (fun n => existsb (has_field F n) docs) (seq 0 (length (fis_fields F)))).
  (* the term vectors of a document *)
  Definition vectors (F : field_infos) (d : document) : list tv_in :=
    flat_map (fun df => match fis_get F (df_name df) with
                        | Some (n, f) => if fi_is_indexed f && fi_store_term_vector f
                                         then let os := occs_of f df in [(n, map (fun t => (t, at_ t os)) (distinct (map o_text os)), if fi_store_offsets f then offs_of os else [])]
                                         else []
                        | None => [] end) (d_fields d).
  Definition with_vectors (F : field_infos) (docs : list document) : list (document * list tv_in) := map (fun d => (d, vectors F d)) docs.
  (* the norms of a field: a byte for every document *)
  Definition norm_of (F : field_infos) (n : nat) (d : document) : Z :=
    match field_of F n d, nth_error (fis_fields F) n with Some df, Some f => norm f (d_boost d) df (Z.of_nat (length (occs_of f df))) | _, _ => 0 end.
  Definition norm_table (F : field_infos) (docs : list document) : list (nat * list Z) :=
    flat_map (fun n => match nth_error (fis_fields F) n with
                       | Some f => if fi_has_norms f && existsb (has_field F n) docs then [(n, map (norm_of F n) docs)] else []
                       | None => [] end) (seq 0 (length (fis_fields F))).

  (* terms are C strings shorter than 255 bytes, positions are ints; where offsets are stored they do not go back and are below 2^30 *)
  Definition occs_ok (so : bool) (os : list occ) : Prop :=
    Forall (fun o => term_ok (o_text o) /\ 0 <= o_pos o < (if so then 2 ^ 30 else 2 ^ 31)) os /\ (so = true -> StronglySorted (fun a b => o_pos a <= o_pos b) os).
  Definition doc_good (F : field_infos) (d : document) : Prop :=
    names_differ d /\
    Forall (fun df => forall n f, fis_get F (df_name df) = Some (n, f) -> fi_is_indexed f = true -> occs_ok (fi_store_offsets f) (occs_of f df)) (d_fields d).
  (* all the occurrences *)
  Definition occ_count (F : field_infos) (docs : list document) : nat :=
    length (flat_map (fun d => flat_map (fun df => match fis_get F (df_name df) with Some (_, f) => if fi_is_indexed f then occs_of f df else [] | None => [] end) (d_fields d)) docs).
  (* documents that fit the formats *)
  Definition fit (F : field_infos) (docs : list document) : Prop :=
    Forall (doc_good F) docs /\ Z.of_nat (length docs) < 2 ^ 30 /\ Z.of_nat (length (fis_fields F)) < 2 ^ 31 /\ Z.of_nat (occ_count F docs) < 2 ^ 28.
End SPEC.
