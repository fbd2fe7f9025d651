(* What it is to add the documents of other indexes to one. *)
From Verif Require Import Util Codec_Model Seg_Model Dict_Model Token_Model Post_Model Merge_Model Fields_Model Invert_Model Iw_Model.
Open Scope Z_scope.

(* the fields of one index and then those only the other one has *)
Definition join (G other : field_infos) : field_infos :=
  mkFis (fis_store G) (fis_index G) (fis_tv G) (fis_fields G ++ filter (fun f => match fis_get G (fi_name f) with Some _ => false | None => true end) (fis_fields other)).
(* a field that both have has the same properties in both; a field that only the other has has boost 1.0 *)
Definition agrees (G other : field_infos) : Prop :=
  Forall (fun f => match fis_get G (fi_name f) with Some (_, g) => g = f | None => fi_boost f = 1065353216 end) (fis_fields other).
Fixpoint agree_all (G : field_infos) (others : list field_infos) : Prop := match others with [] => True | o :: t => agrees G o /\ agree_all (join G o) t end.
(* is2os_copy_bytes copies files up to 2^31 - 1 bytes *)
Definition small_files (x : wseg) : Prop :=
  let g := i_seg (w_in x) in
  Forall (fun f : list Z => Z.of_nat (length f) < 2 ^ 31) ([g_frq g; g_prx g; f_tis (g_dict g); f_tix (g_dict g); f_tfx (g_dict g); w_fdt x; w_fdx x] ++ map snd (w_norms x)).
