(* Model of a reader on the segments an index writer left: ir_open (c/src/index.c 5098-5160) opens a SegmentReader if there is one segment, otherwise a
   MultiReader without a map of field numbers.  Finding the segment of a document is Multi_Model's, the files are those of Iw_Model. *)
From Verif Require Import Util Codec_Model Strcmp Seg_Model Dict_Model Post_Model Multi_Model Mte_Model Mtde_Model Range_Model Merge_Model Fields_Model Iw_Model.
Open Scope Z_scope.

Definition src_of (x : wseg) : psrc := (i_seg (w_in x), i_sfi (w_in x)).
(* 4961-4988 mr_new: starts *)
Fixpoint starts_of (b : Z) (l : list wseg) : list Z := b :: match l with [] => [] | x :: t => starts_of (b + doc_cnt x) t end.
Definition reader_of (segs : list wseg) : prdr := match segs with [x] => POne (src_of x) | _ => PMany None (map src_of segs) (starts_of 0 segs) end.
(* a sub reader as Multi_Model has it *)
Definition sub_of (x : wseg) : sr wseg := mkSr (repeat x (i_max (w_in x))) None [].
(* GET_READER 4745-4747: the segment of a document and its number there; a SegmentReader takes the number as it is *)
Definition rd_locate (segs : list wseg) (d : Z) : option (wseg * nat) :=
  match segs with
  | [x] => if d <? 0 then None else Some (x, Z.to_nat d)
  | _ => do r <- get_reader wseg (mr_new wseg (map sub_of segs) None) d; let '(i, _, k) := r in do x <- nth_error segs i; Some (x, k)
  end.
(* 4278-4281 sr_is_deleted_i, 4868-4872 mr_is_deleted *)
Definition rd_is_deleted (segs : list wseg) (d : Z) : bool := match rd_locate segs d with Some (x, k) => dels (w_in x) (Z.of_nat k) | None => false end.
(* 4470-4473 sr_max_doc, 4740-4743 mr_max_doc *)
Definition rd_max_doc (segs : list wseg) : Z := fold_left (fun m x => m + doc_cnt x) segs 0.
(* 4475-4488 sr_get_doc, 4749-4753 mr_get_doc.  Some None: the StateError for a deleted document *)
Definition rd_get_doc (unzip : list Z -> option (list Z)) (fuel : nat) (F : field_infos) (segs : list wseg) (d : Z) :=
  do r <- rd_locate segs d;
  let '(x, k) := r in
  if dels (w_in x) (Z.of_nat k) then Some None else do v <- fr_get_doc unzip fuel F (w_fdt x) (w_fdx x) k; Some (Some v).
