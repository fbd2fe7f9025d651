(* What the users of stored fields and term vectors rely on: a document comes back with the stored fields it was added with, byte for byte;
   a term vector holds the terms, positions and offsets of its field. *)
From Verif Require Import Util Codec_Spec Seg_Model Seg_Spec Dict_Spec Fields_Model.
Open Scope Z_scope.

(* a compressor: what it makes of any value is not empty and gives the value back *)
Definition codec (zip : list Z -> list Z) (unzip : list Z -> option (list Z)) : Prop := forall d, zip d <> [] /\ unzip (zip d) = Some d.

(* the stored fields of a document *)
Definition stored_view (fis : field_infos) (d : document) : list (list Z * list (list Z)) :=
  map (fun df => (df_name df, df_data df)) (filter (is_stored fis) (d_fields d)).
(* documents: the names of the fields differ, doc_add_field sees to that *)
Definition names_differ (d : document) : Prop := NoDup (map df_name (d_fields d)).
(* the sizes fit the types of the formats; a value that is compressed is bounded both ways *)
Definition is_comp (fis : field_infos) (df : dfield) : bool := match fis_get fis (df_name df) with Some f => fi_is_compressed (snd f) | None => false end.
Definition plain (fis : field_infos) (d : document) : Prop := Forall (fun df => is_stored fis df = true -> is_comp fis df = false) (d_fields d).
Definition small_zip (zip : list Z -> list Z) (fis : field_infos) (d : document) : Prop :=
  Forall (fun df => is_stored fis df = true -> is_comp fis df = true ->
                    Forall (fun v => (length v < ZIP_BUFFER_SIZE)%nat /\ (length (zip v) < ZIP_BUFFER_SIZE)%nat) (df_data df)) (d_fields d).
Definition value_size (v : list Z) : nat := (length v + ZIP_BUFFER_SIZE + 6)%nat.
Definition field_size (df : dfield) : nat := fold_right (fun v n => (value_size v + n)%nat) 15%nat (df_data df).
Definition stored_size (d : document) : nat := fold_right (fun df n => (field_size df + n)%nat) 5%nat (d_fields d).
Definition tv_size (x : tv_in) : nat :=
  (fold_right (fun t n => (length (fst t) + 5 * length (snd t) + 15 + n)%nat) 30%nat (snd (fst x)) + 20 * length (snd x))%nat.
Definition tvs_size (l : list tv_in) : nat := fold_right (fun x n => (tv_size x + n)%nat) 5%nat l.
Definition doc_fits (x : document * list tv_in) : Prop := Z.of_nat (stored_size (fst x) + tvs_size (snd x)) < 2 ^ 31.

(* the field numbers are known, the names of the FieldInfos differ *)
Definition fis_good (fis : field_infos) : Prop := NoDup (map fi_name (fis_fields fis)).
(* what goes into a term vector *)
Definition tv_ok (x : tv_in) : Prop :=
  Forall (fun t => term_ok (fst t) /\ Forall (fun p => -1 <= p < 2 ^ 31 - 1) (snd t)) (snd (fst x)) /\
  Forall (fun o => 0 <= fst o < 2 ^ 62 /\ 0 <= snd o < 2 ^ 62) (snd x).
Definition tv_of (f : field_info) (x : tv_in) : tvec :=
  let '(_, ts, os) := x in
  mkTv (fi_name f) (map (fun t => (fst t, Z.of_nat (length (snd t)), if fi_store_positions f then Some (snd t) else None)) ts)
       (if fi_store_offsets f then match ts with [] => None | _ => Some os end else None).
(* the values of a field as they were analysed: with a space between them *)
Fixpoint joined (l : list (list Z)) : list Z := match l with [] => [] | [v] => v | v :: r => v ++ 32 :: joined r end.
(* a place between two values *)
Fixpoint gap (l : list (list Z)) (start : nat) : bool :=
  match l with
  | [] => false
  | [v] => false
  | v :: r => if (start <? length v)%nat then false else if (start =? length v)%nat then true else gap r (start - length v - 1)
  end.
(* the FieldInfos after the documents; the term vectors are of known fields *)
Definition fis_after (fis : field_infos) (l : list (document * list tv_in)) : field_infos := fold_left (fun s x => add_fields s (fst x)) l fis.
Fixpoint tvs_known (fis : field_infos) (l : list (document * list tv_in)) : Prop :=
  match l with
  | [] => True
  | x :: r => Forall (fun t : tv_in => (fst (fst t) < length (fis_fields (add_fields fis (fst x))))%nat) (snd x) /\ tvs_known (add_fields fis (fst x)) r
  end.
