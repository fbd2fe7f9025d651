(* What a commit is, which files it refers to, and the rules the other parts of the library follow when writing files. *)
From Coq Require Import String.
From Verif Require Import Util Codec_Model Seg_Model Seg_Spec Commit_Model.
Open Scope Z_scope.

(* The directory holds the commit s as generation gen, and no later descriptor. *)
Definition committed (d : dir) (gen : Z) (s : seg_infos) : Prop :=
  0 <= gen < 2 ^ 62 /\ sis_ok s /\ current_generation (names d) = gen /\
  exists fn bs rest, segfn_for_generation gen = Some fn /\ enc_sis s = Some bs /\ lookup fn d = Some (bs ++ rest).
(* The files a segment consists of. *)
Definition has_file (si : seg_info) (k : file_kind) : Prop :=
  match k with
  | Plain e => if si_cfs si then e = str "cfs" else In e COMPOUND_EXTENSIONS
  | Generation e g => e = str "del" /\ g = si_del_gen si /\ 0 <= g
  | NormFile sep g num => nth_error (si_norm_gens si) (Z.to_nat num) = Some g /\ 0 <= num /\ 0 <= g /\ sep = si_cfs si /\ (si_cfs si = true -> 0 < g)
  end.
Definition commit_file (s : seg_infos) (fn : list Z) : Prop :=
  exists c k si, 0 <= c < 2 ^ 64 /\ kind_ok k /\ file_name c k = Some fn /\ In si (sis_segs s) /\ new_segment c = Some (si_name si) /\ has_file si k.
Definition op_target (o : fop) : list Z := match o with Create n => n | Write n _ _ => n | Remove n => n end.
(* Files whose names do not start with "segments". *)
Definition data_file (fn : list Z) : Prop := prefixb (str "segments") fn = false.
(* The file operations spare the files of a commit and all descriptors. *)
Definition spares (s : seg_infos) (ops : list fop) : Prop := Forall (fun o => data_file (op_target o) /\ ~ commit_file s (op_target o)) ops.
(* segment names come from the counter and are distinct *)
Definition segs_ok (s : seg_infos) : Prop :=
  NoDup (map si_name (sis_segs s)) /\ Forall (fun si => exists c, 0 <= c < 2 ^ 64 /\ new_segment c = Some (si_name si)) (sis_segs s).
(* every segment of s is older than its counter (index.c:723-737 sis_new_segment names segments by ++counter's old value) *)
Definition counter_ok (s : seg_infos) : Prop :=
  Forall (fun si => exists c, 0 <= c < sis_counter s /\ new_segment c = Some (si_name si)) (sis_segs s).
(* the extensions of index files *)
Definition index_kind (k : file_kind) : Prop :=
  match k with Plain e | Generation e _ => In e INDEX_EXTENSIONS | NormFile _ _ _ => True end.
(* a history of commits, each preceded and followed by operations on other files *)
Inductive commits : dir -> Z -> seg_infos -> nat -> dir -> Z -> seg_infos -> Prop :=
| Cm_none d g s : commits d g s 0 d g s
| Cm_other d g s n d' g' s' o : commits d g s n d' g' s' -> data_file (op_target o) -> commits d g s n (apply_op d' o) g' s'
| Cm_one d g s n d' g' s' s2 del w : commits d g s n d' g' s' -> g' + 1 < 2 ^ 62 -> sis_ok s2 -> sis_version s2 = (sis_version s' + 1) ->
    sis_write (g' + 1) s2 del = Some w -> commits d g s (S n) (apply_ops d' w) (g' + 1) s2.
(* files of a segment which is part of the commit, but in an outdated generation or in the other (compound or not) form *)
Definition stale_file (si : seg_info) (k : file_kind) : Prop :=
  match k with
  | Plain e => if si_cfs si then In e COMPOUND_EXTENSIONS else e = str "cfs"
  | Generation e g => e = str "del" /\ g <> si_del_gen si
  | NormFile sep g num => exists g', nth_error (si_norm_gens si) (Z.to_nat num) = Some g' /\ 0 <= g' < 2 ^ 31 /\ (g <> g' \/ sep <> (si_cfs si && (g' >? 0)))
  end.
