(* What users of a memory pool expect: blocks of their own.  What a segment should get: the norms and the blocks of its documents. *)
From Verif Require Import Util Pool_Model.
Open Scope Z_scope.
(* the blocks as arrays that have nothing to do with each other *)
Definition sstep (bs : list (list Z)) (o : pop) : option (list (list Z)) :=
  match o with
  | Dup bytes => Some (bs ++ [bytes])
  | Zero n => Some (bs ++ [repeat 0 (Z.to_nat n)])
  | Poke k off b => do x <- nth_error bs k; if (0 <=? off) && (off <? Z.of_nat (length x)) then Some (upd bs k (upd x (Z.to_nat off) b)) else None
  | Reset => Some []
  end.
Fixpoint srun (bs : list (list Z)) (l : list pop) : option (list (list Z)) := match l with [] => Some bs | o :: t => do b <- sstep bs o; srun b t end.
Definition fits (chunk : Z) (o : pop) : Prop := match o with Dup b => Z.of_nat (length b) <= chunk | Zero n => 0 <= n <= chunk | _ => True end.
(* never more than most allocations between two resets, when there have been n since the last one *)
Fixpoint spaced (most n : Z) (l : list pop) : Prop :=
  match l with
  | [] => True
  | Dup _ :: t | Zero _ :: t => n + 1 <= most /\ spaced most (n + 1) t
  | Poke _ _ _ :: t => spaced most n t
  | Reset :: t => spaced most 0 t
  end.
(* ---------- segments *)
(* the norm of a document in a field: that of its last entry for the field, 0 without one *)
Definition norm_of (f : Z) (d : list fld) : Z := fold_left (fun n x => if f_num x =? f then f_norm x else n) d 0.
Definition has_field (f : Z) (b : list (list fld)) : Prop := exists d x, In d b /\ In x d /\ f_num x = f.
(* the blocks of the inversion *)
Definition act_blocks (bs : list (list Z)) (a : act) : option (list (list Z)) :=
  match a with
  | ADup bytes => Some (bs ++ [bytes])
  | APoke j off b => do x <- nth_error bs j; if (0 <=? off) && (off <? Z.of_nat (length x)) then Some (upd bs j (upd x (Z.to_nat off) b)) else None
  end.
Fixpoint acts_blocks (bs : list (list Z)) (l : list act) : option (list (list Z)) := match l with [] => Some bs | a :: t => do b <- act_blocks bs a; acts_blocks b t end.
Fixpoint fields_blocks (bs : list (list Z)) (d : list fld) : option (list (list Z)) := match d with [] => Some bs | x :: t => do b <- acts_blocks bs (f_acts x bs); fields_blocks b t end.
Fixpoint batch_blocks (bs : list (list Z)) (b : list (list fld)) : option (list (list Z)) := match b with [] => Some bs | d :: t => do x <- fields_blocks bs d; batch_blocks x t end.
(* one segment's output: each indexed field with norms once, with one norm for each document *)
Definition segment_of (has_norms : Z -> bool) (b : list (list fld)) (o : output) : Prop :=
  NoDup (map fst (fst o)) /\ (forall f, In f (map fst (fst o)) <-> has_norms f = true /\ has_field f b) /\
  (forall f l, In (f, l) (fst o) -> l = map (norm_of f) b) /\ batch_blocks [] b = Some (snd o).
Definition docs_of (l : list wop) : list (list fld) := flat_map (fun o => match o with WAdd d => [d] | _ => [] end) l.

(* an inversion that keeps to its blocks, allocates blocks that fit into a chunk and at most a number of them *)
Definition act_fits (ch : Z) (a : act) : Prop := match a with ADup x => Z.of_nat (length x) <= ch | _ => True end.
Definition dups (l : list act) : Z := Z.of_nat (length (filter (fun a => match a with ADup _ => true | _ => false end) l)).
Definition tidy (ch most : Z) (x : fld) : Prop := forall bs, exists bs', acts_blocks bs (f_acts x bs) = Some bs' /\ Forall (act_fits ch) (f_acts x bs) /\ dups (f_acts x bs) <= most.
(* a writer's history: with chunks of ch bytes, norms for md documents and at most mm bytes of memory before a document is added.
   sized: the configuration when the first document comes; afterwards max_buffered_docs never exceeds the number of norms *)
Definition sized (ch md mm : Z) (c : config) : Prop := chunk_size c = ch /\ ch <= max_buffer_memory c <= mm /\ max_buffered_docs c = md.
Fixpoint steady (ch md mm most : Z) (opened : bool) (c : config) (l : list wop) : Prop :=
  match l with
  | [] => True
  | WAdd d :: t => (if opened then max_buffer_memory c <= mm /\ max_buffered_docs c <= md else sized ch md mm c) /\ Forall (tidy ch most) d /\ mm + (Z.of_nat (length d) * (most + 2) + 3) * ch <= INT_MAX /\ steady ch md mm most true c t
  | WDocs n :: t => steady ch md mm most opened (mkConf (chunk_size c) (max_buffer_memory c) n) t
  | WMemory n :: t => steady ch md mm most opened (mkConf (chunk_size c) n (max_buffered_docs c)) t
  | WChunk n :: t => steady ch md mm most opened (mkConf n (max_buffer_memory c) (max_buffered_docs c)) t
  | WCommit :: t => steady ch md mm most opened c t
  end.
