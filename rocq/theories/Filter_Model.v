(* Model of cached filters and the two scorers that use them: c/src/filter.c filt_get_bv (24-38) and qfilt_get_bv_i (105-122),
   c/src/q_const_score.c cssc_new, cssc_next, cssc_skip_to (26-55), c/src/q_filtered_query.c fqsc_next, fqsc_skip_to, fqw_scorer (30-128).
   One index reader; the bit vector a filter has cached for it is one object shared by all scorers, so it lives in the world and scorers
   refer to it by the filter.  Scores and explanations are left out.  The documents a filter's own query stops at (which its
   get_bv_i puts into the vector) are a parameter that depends on what is deleted; the range filters do the same (Range_Model).
   The scorer below a filtered query is any scorer of Bool_Model.  None is undefined behaviour (or not enough fuel). *)
From Verif Require Import Util BitVector_Model Query_Model Bool_Model.
Open Scope nat_scope.

Record world := mkW { w_deleted : list nat; w_cache : list (nat * bv) }.   (* filter |-> its vector for the reader *)
Fixpoint lookup (f : nat) (c : list (nat * bv)) : option bv :=
  match c with [] => None | (g, b) :: t => if g =? f then Some b else lookup f t end.
Definition put (w : world) (f : nat) (b : bv) : world := mkW (w_deleted w) ((f, b) :: w_cache w).

Section FILTERS.
  Variable max_doc : nat.
  Variable docs : nat -> list nat -> list nat.   (* filter, deleted documents |-> the documents get_bv_i finds, in its order *)

  (* filter.c 105-122 qfilt_get_bv_i *)
  Fixpoint set_all (b : bv) (l : list nat) : option bv := match l with [] => Some b | d :: t => do b' <- bv_set b d; set_all b' t end.
  Definition get_bv_i (w : world) (f : nat) : option bv := set_all (bv_new_capa max_doc) (docs f (w_deleted w)).
  (* filter.c 24-38 filt_get_bv *)
  Definition filt_get_bv (w : world) (f : nat) : option world :=
    match lookup f (w_cache w) with Some _ => Some w | None => do b <- get_bv_i w f; Some (put w f b) end.
  (* q_const_score.c 26-34: next (None) and skip_to of a ConstantScoreScorer of filter f; the document it stops at, or None for false *)
  Definition cs_move (w : world) (f : nat) (op : option nat) : option (option nat * world) :=
    do b <- lookup f (w_cache w);
    do r <- match op with None => bv_scan_next b | Some d => bv_scan_next_from b d end;
    Some (if (0 <=? fst r)%Z then Some (Z.to_nat (fst r)) else None, put w f (snd r)).
  (* the loop of a search: while (scorer->next(scorer)) *)
  Fixpoint cs_loop (fuel : nat) (w : world) (f : nat) : option (list nat * world) :=
    match fuel with
    | O => None
    | S k => do r <- cs_move w f None;
             match fst r with Some d => do x <- cs_loop k (snd r) f; Some (d :: fst x, snd x) | None => Some ([], snd r) end
    end.
  (* cssc_new, then the loop *)
  Definition cs_search (fuel : nat) (w : world) (f : nat) : option (list nat * world) := do w' <- filt_get_bv w f; cs_loop fuel w' f.

  (* q_filtered_query.c 30-39 fqsc_next and 41-54 fqsc_skip_to, over the scorer sub; the result: stopped at a document, the scorer *)
  Definition bit (w : world) (f : nat) (s : sc) : option bool := do b <- lookup f (w_cache w); bv_get b (Z.to_nat (doc_of s)).
  Fixpoint fq_next (fuel : nat) (w : world) (f : nat) (sub : sc) : option (bool * sc) :=
    match fuel with
    | O => None
    | S k => do r <- run k None sub; if fst r then do y <- bit w f (snd r); if y then Some r else fq_next k w f (snd r) else Some r
    end.
  Definition fq_skip_to (fuel : nat) (w : world) (f : nat) (sub : sc) (d : Z) : option (bool * sc) :=
    do r <- run fuel (Some d) sub;
    if fst r then do y <- bit w f (snd r); if y then Some r else fq_next fuel w f (snd r) else Some r.
  Definition fq_move (fuel : nat) (w : world) (f : nat) (op : option Z) (sub : sc) : option (bool * sc) :=
    match op with None => fq_next fuel w f sub | Some d => fq_skip_to fuel w f sub d end.
  Fixpoint fq_loop (fuel : nat) (w : world) (f : nat) (sub : sc) : option (list Z) :=
    match fuel with
    | O => None
    | S k => do r <- fq_next k w f sub; if fst r then do l <- fq_loop k w f (snd r); Some (doc_of (snd r) :: l) else Some []
    end.
  (* 120-128 fqw_scorer, then the loop: the scorer of the query may be NULL, which nothing checks *)
  Definition fq_search (fuel : nat) (w : world) (f : nat) (sub : option sc) : option (list Z * world) :=
    do w' <- filt_get_bv w f;
    do s <- sub;
    do l <- fq_loop fuel w' f s; Some (l, w').

  (* what a program does with the reader between two searches *)
  Inductive event :=
  | Open (f : nat)                       (* a scorer of a constant score or filtered query is made, the filter is handed to a search *)
  | Move (f : nat) (op : option nat)     (* a ConstantScoreScorer of the filter moves *)
  | Del (d : nat).                       (* ir_delete_doc *)
  Definition step (w : world) (e : event) : option world :=
    match e with
    | Open f => filt_get_bv w f
    | Move f op => do r <- cs_move w f op; Some (snd r)
    | Del d => Some (mkW (d :: w_deleted w) (w_cache w))
    end.
  Fixpoint steps (w : world) (l : list event) : option world := match l with [] => Some w | e :: t => do w' <- step w e; steps w' t end.
End FILTERS.
