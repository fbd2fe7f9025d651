(* Model of MultiTermEnum, c/src/index.c:2380-2608: terms of several segments merged by a priority queue of wrappers.
   The sub-enumerators are those of Dict_Model on the files of their segments.  A wrapper in the queue is its index and the term it
   points to: a sub-enumerator is only moved while its wrapper is outside of the queue.  Not modelled: prev_term, doc_freq beyond
   2^31 (sum over segments), sub-readers that are themselves over several segments. *)
From Verif Require Import Util Strcmp Dict_Model PQueue_Model Multi_Model.
Open Scope Z_scope.

Notation src := (dfiles * sfi)%type.
(* 2403-2412 tew_lt *)
Definition tew_lt (a b : list Z * nat) : bool := match scmp (fst a) (fst b) with Eq => (snd a <? snd b)%nat | Lt => true | Gt => false end.
Notation tewq := (pq (list Z * nat)).
(* the queue, the sub-enumerators, curr_term, curr_ti.doc_freq, and tis with ti_indexes *)
Record mte := mkMte { q_te : tewq; q_subs : list ste; q_term : list Z; q_df : Z; q_tis : list (nat * ti) }.

(* 2463-2492 mte_next: the loop.  tis has one slot for every segment: running out of fuel is writing behind it *)
Fixpoint next_loop (fuel : nat) (srcs : list src) (cur : list Z) (q : tewq) (subs : list ste) (df : Z) (tis : list (nat * ti)) : option (tewq * list ste * Z * list (nat * ti)) :=
  match fuel with
  | O => None
  | S f =>
      do top <- pq_top _ q;
      match top with
      | None => Some (q, subs, df, tis)
      | Some (t, i) =>
          if seqb cur t then
            do r <- pq_pop _ tew_lt q;
            do e <- nth_error subs i;
            do s <- nth_error srcs i;
            do n <- ste_next (s_skip (snd s)) e;
            do q2 <- match fst n with Some t2 => pq_push _ tew_lt (snd r) (t2, i) | None => Some (snd r) end;
            next_loop f srcs cur q2 (upd subs i (snd n)) (df + ti_df (e_ti e)) (tis ++ [(i, e_ti e)])
          else Some (q, subs, df, tis)
      end
  end.
Definition mte_next (srcs : list src) (m : mte) : option (option (list Z) * mte) :=
  do top <- pq_top _ (q_te m);
  match top with
  | None => Some (None, mkMte (q_te m) (q_subs m) [] (q_df m) (q_tis m))
  | Some (t, _) =>
      do r <- next_loop (S (length srcs)) srcs t (q_te m) (q_subs m) 0 [];
      let '(q, subs, df, tis) := r in
      Some (Some t, mkMte q subs t df tis)
  end.
(* the loops of mte_set_field, mte_skip_to and mte_new: move every sub-enumerator, queue those that stand on a term *)
Fixpoint each (move : nat -> src -> ste -> option (option (list Z) * ste)) (i : nat) (srcs : list src) (subs : list ste) (q : tewq) : option (tewq * list ste) :=
  match srcs, subs with
  | s :: srcs', e :: subs' =>
      do r <- move i s e;
      do q2 <- match fst r with Some t => pq_push _ tew_lt q (t, i) | None => Some q end;
      do z <- each move (S i) srcs' subs' q2;
      Some (fst z, snd r :: snd z)
  | [], [] => Some (q, [])
  | _, _ => None
  end.
Definition emptied (q : tewq) : tewq := mkPq (pq_heap q) 0 (pq_capa q).
Definition switch_off (e : ste) : ste := mkSte (e_in e) (e_pos e) (e_size e) (e_term e) (e_ti e) (-1).
(* 2494-2521 mte_set_field *)
Definition set_move (mp : option (list (list Z))) (f : Z) (i : nat) (s : src) (e : ste) : option (option (list Z) * ste) :=
  do n <- fnum mp i f;
  if 0 <=? n then ste_next (s_skip (snd s)) (ste_set_field (fst s) (snd s) e n) else Some (None, switch_off e).
Definition mte_set_field (srcs : list src) (mp : option (list (list Z))) (m : mte) (f : Z) : option mte :=
  do r <- each (set_move mp f) O srcs (q_subs m) (emptied (q_te m));
  Some (mkMte (fst r) (snd r) (q_term m) (q_df m) (q_tis m)).
(* 2523-2539 mte_skip_to *)
Definition skip_move (term : list Z) (i : nat) (s : src) (e : ste) : option (option (list Z) * ste) :=
  if 0 <=? e_field e then ste_scan_to (fst s) (snd s) e term else Some (None, e).
Definition mte_skip_to (srcs : list src) (m : mte) (term : list Z) : option (option (list Z) * mte) :=
  do r <- each (skip_move term) O srcs (q_subs m) (emptied (q_te m));
  mte_next srcs (mkMte (fst r) (snd r) (q_term m) (q_df m) (q_tis m)).
(* 2554-2608 mte_new with sr_terms (4519-4524) and sr_terms_from (4526-4533): clones of a fresh enumerator.  With a starting term a
   wrapper is queued if the term it stands on is not empty *)
Definition new_move (mp : option (list (list Z))) (f : Z) (term : option (list Z)) (i : nat) (s : src) (e : ste) : option (option (list Z) * ste) :=
  do n <- fnum mp i f;
  if 0 <=? n then
    let e1 := ste_set_field (fst s) (snd s) e n in
    match term with
    | None => ste_next (s_skip (snd s)) e1
    | Some t => do r <- ste_scan_to (fst s) (snd s) e1 t;
                Some (match e_term (snd r) with [] => None | c => Some c end, snd r)
    end
  else Some (None, switch_off (ste_set_field (fst s) (snd s) e 0)).
Definition mte_new (srcs : list src) (mp : option (list (list Z))) (f : Z) (term : option (list Z)) : option (option (list Z) * mte) :=
  do r <- each (new_move mp f term) O srcs (map (fun _ => ste_new) srcs) (pq_new _ (length srcs));
  let m := mkMte (fst r) (snd r) [] 0 [] in
  match term with
  | None => Some (None, m)
  | Some _ => if (0 <? pq_size (fst r))%nat then mte_next srcs m else Some (None, m)
  end.

(* operations; a term is observed with the document frequency of the enumerator *)
Inductive qop := QField (f : Z) | QNext | QScan (t : list Z).
Inductive qres := QDone | QTerm (r : option (list Z * Z)).
Definition seen (r : option (list Z) * mte) : qres := QTerm (match fst r with None => None | Some t => Some (t, q_df (snd r)) end).
Definition mte_step (srcs : list src) (mp : option (list (list Z))) (m : mte) (o : qop) : option (qres * mte) :=
  match o with
  | QField f => do m' <- mte_set_field srcs mp m f; Some (QDone, m')
  | QNext => do r <- mte_next srcs m; Some (seen r, snd r)
  | QScan t => do r <- mte_skip_to srcs m t; Some (seen r, snd r)
  end.
Fixpoint mte_run (srcs : list src) (mp : option (list (list Z))) (m : mte) (os : list qop) : option (list qres) :=
  match os with [] => Some [] | o :: t => do r <- mte_step srcs mp m o; do q <- mte_run srcs mp (snd r) t; Some (fst r :: q) end.
(* 4837-4850 mr_doc_freq with sr_doc_freq (4535-4539) on fresh enumerators *)
Fixpoint mr_doc_freq (i : nat) (srcs : list src) (mp : option (list (list Z))) (f : Z) (t : list Z) : option Z :=
  match srcs with
  | [] => Some 0
  | s :: r =>
      do n <- fnum mp i f;
      do d <- (if 0 <=? n then do x <- tir_get_ti (fst s) (snd s) (ste_set_field (fst s) (snd s) ste_new n) t; Some (match fst x with Some j => ti_df j | None => 0 end) else Some 0);
      do z <- mr_doc_freq (S i) r mp f t; Some (d + z)
  end.
