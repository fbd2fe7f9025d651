(* Model of MultiReader (c/src/index.c:4690-5095) over segment readers (4245-4345, 4457-4590).
   A segment reader keeps its documents, the set of its deleted documents and its norms; the files behind them are the subject of
   other areas.  Not modelled: locks and commits of the sub-readers (see Commit_Model), term vectors, lazy documents (dispatched like
   mr_get_doc), memory. *)
From Verif Require Import Util.
Open Scope Z_scope.

Section Multi.
  Variable D : Type.  (* what is stored of a document *)

  (* SegmentReader: deleted_docs is NULL or a bit vector, here the list of its bits; norms: field number -> bytes *)
  Record sr := mkSr { r_docs : list D; r_del : option (list nat); r_norms : list (Z * list Z) }.
  Definition memb (d : nat) (l : list nat) : bool := existsb (Nat.eqb d) l.
  (* 4278-4281 sr_is_deleted_i *)
  Definition sr_is_deleted (s : sr) (d : nat) : bool := match r_del s with None => false | Some l => memb d l end.
  (* 4457-4468 sr_num_docs *)
  Definition sr_num_docs (s : sr) : Z := Z.of_nat (length (r_docs s)) - match r_del s with None => 0 | Some l => Z.of_nat (length l) end.
  (* 4475-4488 sr_get_doc: a deleted document is an error (None inside); a number outside the file is undefined *)
  Definition sr_get_doc (s : sr) (d : nat) : option (option D) :=
    if sr_is_deleted s d then Some None else match nth_error (r_docs s) d with Some x => Some (Some x) | None => None end.
  (* 4330-4340 sr_delete_doc_i *)
  Definition sr_delete (s : sr) (d : nat) : sr :=
    let l := match r_del s with None => [] | Some l => l end in
    mkSr (r_docs s) (Some (if memb d l then l else d :: l)) (r_norms s).
  (* 4342-4351 sr_undelete_all_i *)
  Definition sr_undelete (s : sr) : sr := mkSr (r_docs s) None (r_norms s).
  Definition find_norm (l : list (Z * list Z)) (f : Z) : option (list Z) := option_map snd (find (fun x => fst x =? f) l).
  (* 4283-4301 sr_get_norms_into_i *)
  Definition sr_norms_into (s : sr) (f : Z) : list Z := match find_norm (r_norms s) f with None => repeat 0 (length (r_docs s)) | Some b => b end.
  (* 4319-4328 sr_set_norm_i *)
  Definition sr_set_norm (s : sr) (d : nat) (f : Z) (v : Z) : sr :=
    mkSr (r_docs s) (r_del s) (map (fun x => if fst x =? f then (fst x, upd (snd x) d v) else x) (r_norms s)).

  (* MultiReader *)
  Record mr := mkMr { m_subs : list sr; m_starts : list Z; m_max : Z; m_num : option Z; m_has : bool; m_cache : list (Z * list Z); m_map : option (list (list Z)) }.
  (* 4961-4988 mr_new: starts and max_doc *)
  Fixpoint starts_from (max : Z) (subs : list sr) : list Z :=
    match subs with [] => [max] | s :: t => max :: starts_from (max + Z.of_nat (length (r_docs s))) t end.
  Definition total (subs : list sr) : Z := fold_left (fun m s => m + Z.of_nat (length (r_docs s))) subs 0.
  Definition mr_new (subs : list sr) (mp : option (list (list Z))) : mr :=
    mkMr subs (starts_from 0 subs) (total subs) None (existsb (fun s => match r_del s with None => false | Some _ => true end) subs) [] mp.
  (* 4696-4722 mr_reader_index_i *)
  Definition at_start (starts : list Z) (i : Z) : option Z := if i <? 0 then None else nth_error starts (Z.to_nat i).
  Fixpoint last_match (fuel : nat) (starts : list Z) (rcnt mid v : Z) : option Z :=
    match fuel with
    | O => None
    | S f => if mid + 1 <? rcnt then
               do x <- at_start starts (mid + 1);
               if x =? v then last_match f starts rcnt (mid + 1) v else Some mid
             else Some mid
    end.
  Fixpoint search (fuel : nat) (starts : list Z) (rcnt lo hi doc : Z) : option Z :=
    match fuel with
    | O => None
    | S f =>
        if lo <=? hi then
          let mid := Z.shiftr (lo + hi) 1 in
          do v <- at_start starts mid;
          if doc <? v then search f starts rcnt lo (mid - 1) doc
          else if v <? doc then search f starts rcnt (mid + 1) hi doc
          else last_match (S (length starts)) starts rcnt mid v
        else Some hi
    end.
  Definition reader_index (m : mr) (doc : Z) : option Z :=
    let rcnt := Z.of_nat (length (m_subs m)) in search (S (length (m_subs m))) (m_starts m) rcnt 0 (rcnt - 1) doc.
  (* 4748-4750 GET_READER and the local number *)
  Definition get_reader (m : mr) (doc : Z) : option (nat * sr * nat) :=
    do i <- reader_index m doc;
    do st <- at_start (m_starts m) i;
    do s <- nth_error (m_subs m) (Z.to_nat i);
    Some (Z.to_nat i, s, Z.to_nat (doc - st)).
  (* 4764-4773 mr_get_field_num *)
  Definition fnum (mp : option (list (list Z))) (i : nat) (f : Z) : option Z :=
    match mp with None => Some f | Some rows => do r <- nth_error rows i; if f <? 0 then None else nth_error r (Z.to_nat f) end.
  (* 4775-4801 mr_get_norms: the blocks are written one after the other into a zeroed array *)
  Definition put (bytes : list Z) (at_ : nat) (b : list Z) : list Z := firstn at_ bytes ++ b ++ skipn (at_ + length b) bytes.
  Fixpoint fill (mp : option (list (list Z))) (f : Z) (i : nat) (subs : list sr) (starts : list Z) (bytes : list Z) : option (list Z) :=
    match subs, starts with
    | [], _ => Some bytes
    | s :: t, st :: sts =>
        do n <- fnum mp i f;
        fill mp f (S i) t sts (if 0 <=? n then put bytes (Z.to_nat st) (sr_norms_into s n) else bytes)
    | _ :: _, [] => None
    end.
  Definition mr_get_norms (m : mr) (f : Z) : option (list Z * mr) :=
    match find_norm (m_cache m) f with
    | Some b => Some (b, m)
    | None =>
        do b <- fill (m_map m) f O (m_subs m) (m_starts m) (repeat 0 (Z.to_nat (m_max m)));
        Some (b, mkMr (m_subs m) (m_starts m) (m_max m) (m_num m) (m_has m) ((f, b) :: m_cache m) (m_map m))
    end.
  (* 4888-4899 mr_set_norm_i: the cached array of field fnum is dropped, fnum being the number in the sub-reader *)
  Definition mr_set_norm (m : mr) (doc : Z) (f v : Z) : option mr :=
    do r <- get_reader m doc;
    let '(i, s, d) := r in
    do n <- fnum (m_map m) i f;
    if 0 <=? n then
      Some (mkMr (upd (m_subs m) i (sr_set_norm s d n v)) (m_starts m) (m_max m) (m_num m) (m_has m) (filter (fun x => negb (fst x =? n)) (m_cache m)) (m_map m))
    else Some m.
  (* 4901-4910 mr_delete_doc_i behind the range check of ir_delete_doc (4031-4040) *)
  Definition mr_delete (m : mr) (doc : Z) : option mr :=
    if (0 <=? doc) && (doc <? m_max m) then
      do r <- get_reader m doc;
      let '(i, s, d) := r in
      Some (mkMr (upd (m_subs m) i (sr_delete s d)) (m_starts m) (m_max m) None true (m_cache m) (m_map m))
    else Some m.
  (* 4912-4924 mr_undelete_all_i *)
  Definition mr_undelete (m : mr) : mr := mkMr (map sr_undelete (m_subs m)) (m_starts m) (m_max m) None false (m_cache m) (m_map m).
  (* 4724-4741 mr_num_docs *)
  Definition mr_num_docs (m : mr) : Z * mr :=
    match m_num m with
    | Some n => (n, m)
    | None => let n := fold_left (fun a s => a + sr_num_docs s) (m_subs m) 0 in
              (n, mkMr (m_subs m) (m_starts m) (m_max m) (Some n) (m_has m) (m_cache m) (m_map m))
    end.

  (* 4752-4756 mr_get_doc, 4877-4881 mr_is_deleted *)
  Definition mr_get_doc (m : mr) (doc : Z) : option (option D) := do r <- get_reader m doc; let '(i, s, d) := r in sr_get_doc s d.
  Definition mr_is_deleted (m : mr) (doc : Z) : option bool := do r <- get_reader m doc; let '(i, s, d) := r in Some (sr_is_deleted s d).

  Inductive mop := MGet (d : Z) | MIsDeleted (d : Z) | MDelete (d : Z) | MUndelete | MNumDocs | MMaxDoc | MHasDeletions | MSetNorm (d f v : Z) | MNorms (f : Z).
  Inductive mres := MUnit | MDoc (x : option D) | MBool (b : bool) | MNum (n : Z) | MBytes (l : list Z).
  Definition mr_step (m : mr) (o : mop) : option (mres * mr) :=
    match o with
    | MGet d => do x <- mr_get_doc m d; Some (MDoc x, m)
    | MIsDeleted d => do b <- mr_is_deleted m d; Some (MBool b, m)
    | MDelete d => do m' <- mr_delete m d; Some (MUnit, m')
    | MUndelete => Some (MUnit, mr_undelete m)
    | MNumDocs => let '(n, m') := mr_num_docs m in Some (MNum n, m')
    | MMaxDoc => Some (MNum (m_max m), m)
    | MHasDeletions => Some (MBool (m_has m), m)
    | MSetNorm d f v => do m' <- mr_set_norm m d f v; Some (MUnit, m')
    | MNorms f => do r <- mr_get_norms m f; Some (MBytes (fst r), snd r)
    end.
  Fixpoint mr_run (m : mr) (os : list mop) : option (list mres) :=
    match os with [] => Some [] | o :: t => do r <- mr_step m o; do q <- mr_run (snd r) t; Some (fst r :: q) end.
End Multi.
Arguments mkSr {D}. Arguments r_docs {D}. Arguments r_del {D}. Arguments r_norms {D}.
Arguments mkMr {D}. Arguments m_subs {D}. Arguments m_starts {D}. Arguments m_max {D}. Arguments m_num {D}. Arguments m_has {D}. Arguments m_cache {D}. Arguments m_map {D}.
Arguments MUnit {D}. Arguments MDoc {D}. Arguments MBool {D}. Arguments MNum {D}. Arguments MBytes {D}.
