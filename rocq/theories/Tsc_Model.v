(* Model of the scorers of TermQuery and MultiTermQuery: c/src/q_term.c (TermScorer, tw_scorer) and c/src/q_multi_term.c
   (TermDocEnumWrapper, MultiTermScorer, multi_tw_scorer), on the enumerators of Range_Model for readers of one or several segments and on
   the priority queue of PQueue_Model.  A score is what it is computed from: the frequencies of the terms.  Not modelled: floats, explain,
   memory.  None: undefined behaviour. *)
From Verif Require Import Util Strcmp Dict_Model Post_Model PQueue_Model Multi_Model Mte_Model Mtde_Model Expand_Model Range_Model.
Open Scope Z_scope.

(* tde->read *)
Definition pe_read (r : prdr) (del : Z -> bool) (n : nat) (de : penum) : option (list (Z * Z) * penum) :=
  match r, de with
  | POne g, DOne d => do x <- stde_read (S (Z.to_nat (p_df d - p_count d))) del d n; Some (fst x, DOne (snd x))
  | PMany mp gs starts, DMany m => do x <- mtde_read gs starts (2 * length gs + 2) del [] n m; Some (fst x, DMany (snd x))
  | _, _ => None
  end.
(* tde->skip_to, with doc_num and freq where it stops *)
Definition pe_skip (r : prdr) (del : Z -> bool) (target : Z) (de : penum) : option (option (Z * Z) * penum) :=
  match r, de with
  | POne g, DOne d => do x <- tde_skip_to false (g_frq (fst g)) (g_prx (fst g)) (s_skip (snd g)) del d target;
                      Some (if fst x then Some (p_doc (snd x), p_freq (snd x)) else None, DOne (snd x))
  | PMany mp gs starts, DMany m => do x <- mtde_skip false gs starts (S (S (length gs))) del target m; Some (fst x, DMany (snd x))
  | _, _ => None
  end.
(* tde->seek; t is the TermInfosReader of the only segment *)
Definition pe_seek (r : prdr) (t : tir) (f : Z) (term : list Z) (de : penum) : option (penum * tir) :=
  match r, de with
  | POne g, DOne d => do x <- tir_get_ti_field (g_dict (fst g)) (snd g) t O f term; Some (DOne (tde_seek false (g_frq (fst g)) (g_prx (fst g)) (s_skip (snd g)) d (fst x)), snd x)
  | PMany mp gs starts, DMany m => do m' <- mtde_seek false gs starts mp m f term; Some (DMany m', t)
  | _, _ => None
  end.

(* ---------- reading ahead.  TermScorer (q_term.c 17-29) and TermDocEnumWrapper (q_multi_term.c 53-64) have the same fields and, but for the
   number of documents they read at once, the same next and skip_to *)
Record rbuf := mkRb { b_arr : list (Z * Z); b_ptr : nat; b_max : nat; b_doc : Z; b_freq : Z; b_de : penum }.
Definition over (l old : list (Z * Z)) : list (Z * Z) := l ++ skipn (length l) old.
Section BUF.
  Variables (r : prdr) (del : Z -> bool) (n : nat).
  Definition rb_here (b : rbuf) : option (bool * rbuf) := do c <- nth_error (b_arr b) (b_ptr b); Some (true, mkRb (b_arr b) (b_ptr b) (b_max b) (fst c) (snd c) (b_de b)).
  (* q_term.c 49-67 tsc_next, q_multi_term.c 72-88 tdew_next *)
  Definition rb_next (b : rbuf) : option (bool * rbuf) :=
    let p := S (b_ptr b) in
    if (b_max b <=? p)%nat then
      do x <- pe_read r del n (b_de b);
      match fst x with
      | [] => Some (false, mkRb (b_arr b) p O (b_doc b) (b_freq b) (snd x))
      | l => rb_here (mkRb (over l (b_arr b)) O (length l) (b_doc b) (b_freq b) (snd x))
      end
    else rb_here (mkRb (b_arr b) p (b_max b) (b_doc b) (b_freq b) (b_de b)).
  (* q_term.c 75-80, q_multi_term.c 94-100: k places are left; the place where it stops *)
  Fixpoint rb_scan (k : nat) (arr : list (Z * Z)) (p : nat) (target : Z) : option (option nat) :=
    match k with
    | O => Some None
    | S k' => do c <- nth_error arr p; if target <=? fst c then Some (Some p) else rb_scan k' arr (S p) target
    end.
  (* q_term.c 69-93 tsc_skip_to, q_multi_term.c 90-115 tdew_skip_to *)
  Definition rb_skip (target : Z) (b : rbuf) : option (bool * rbuf) :=
    let p := S (b_ptr b) in
    do s <- rb_scan (b_max b - p) (b_arr b) p target;
    match s with
    | Some j => rb_here (mkRb (b_arr b) j (b_max b) (b_doc b) (b_freq b) (b_de b))
    | None =>
        let p' := Nat.max p (b_max b) in
        do x <- pe_skip r del target (b_de b);
        match fst x with
        | Some c => Some (true, mkRb (over [c] (b_arr b)) O 1 (fst c) (snd c) (snd x))
        | None => Some (false, mkRb (b_arr b) p' (b_max b) (b_doc b) (b_freq b) (snd x))
        end
    end.
  Definition rb_new (doc : Z) (de : penum) : rbuf := mkRb (repeat (0, 0) n) O O doc 0 de.
End BUF.

(* ---------- TermScorer *)
Definition TSC_READ : nat := 32.
(* 147-156 tw_scorer with ir_term_docs_for (index.c 4078-4087): the field may be unknown *)
Definition tw_scorer (r : prdr) (t : tir) (f : option Z) (term : list Z) : option rbuf :=
  do de <- term_docs r;
  do de' <- match f with Some n => do x <- pe_seek r t n term de; Some (fst x) | None => Some de end;
  Some (rb_new TSC_READ 0 de').
(* what tsc_score (32-47) sees: the document and freqs[pointer] *)
Definition tsc_seen (x : bool * rbuf) : option (option (Z * Z)) :=
  if fst x then do c <- nth_error (b_arr (snd x)) (b_ptr (snd x)); Some (Some (b_doc (snd x), snd c)) else Some None.

(* ---------- MultiTermScorer *)
Definition TDEW_READ : nat := 16.
Definition tdew_lt (a b : Z * nat) : bool := fst a <? fst b.
(* tdew_a, tdew_pq with the doc of every wrapper in it, doc, and what total_score is the sum of *)
Record mts := mkMts { m_ws : list rbuf; m_pq : option (pq (Z * nat)); m_doc : Z; m_sum : list (nat * Z) }.
Section MTS.
  Variables (r : prdr) (del : Z -> bool).
  Notation next := (rb_next r del TDEW_READ).
  Notation skip := (rb_skip r del).
  (* 171-180: from the last wrapper to the first; c of them are left *)
  Fixpoint start_next (c : nat) (ws : list rbuf) (q : pq (Z * nat)) : option (list rbuf * pq (Z * nat)) :=
    match c with
    | O => Some (ws, q)
    | S i => do w <- nth_error ws i;
             do x <- next w;
             do q' <- (if fst x then pq_push _ tdew_lt q (b_doc (snd x), i) else Some q);
             start_next i (upd ws i (snd x)) q'
    end.
  (* 189-208: the wrappers at the current document *)
  Fixpoint collect (fuel : nat) (cur : Z) (ws : list rbuf) (q : pq (Z * nat)) (sum : list (nat * Z)) : option (list rbuf * pq (Z * nat) * list (nat * Z)) :=
    match fuel with
    | O => None
    | S k =>
        do top <- pq_top _ q;
        match top with
        | None => Some (ws, q, sum)
        | Some (d, i) =>
            if d =? cur then
              do w <- nth_error ws i;
              do x <- next w;
              do q' <- (if fst x then pq_replace_top _ tdew_lt q (b_doc (snd x), i) else do y <- pq_pop _ tdew_lt q; Some (snd y));
              collect k cur (upd ws i (snd x)) q' (sum ++ [(i, b_freq w)])
            else Some (ws, q, sum)
        end
    end.
  (* 163-211 multi_tsc_next *)
  Definition multi_next (s : mts) : option (bool * mts) :=
    do z <- match m_pq s with Some q => Some (m_ws s, q) | None => start_next (length (m_ws s)) (m_ws s) (pq_new _ (length (m_ws s))) end;
    do top <- pq_top _ (snd z);
    match top with
    | None => Some (false, mkMts (fst z) (Some (snd z)) (m_doc s) (m_sum s))
    | Some (d, _) => do y <- collect (S (length (m_ws s))) d (fst z) (snd z) [];
                     Some (true, mkMts (fst (fst y)) (Some (snd (fst y))) d (snd y))
    end.
  (* 217-227: all wrappers are queued, also those that have no document any more *)
  Fixpoint start_skip (target : Z) (c : nat) (ws : list rbuf) (q : pq (Z * nat)) : option (list rbuf * pq (Z * nat)) :=
    match c with
    | O => Some (ws, q)
    | S i => do w <- nth_error ws i;
             do x <- skip target w;
             do q' <- pq_push _ tdew_lt q (b_doc (snd x), i);
             start_skip target i (upd ws i (snd x)) q'
    end.
  (* 232-240; fuel: a wrapper is moved once *)
  Fixpoint adv_loop (fuel : nat) (target : Z) (ws : list rbuf) (q : pq (Z * nat)) : option (list rbuf * pq (Z * nat)) :=
    match fuel with
    | O => None
    | S k =>
        do top <- pq_top _ q;
        match top with
        | None => Some (ws, q)
        | Some (d, i) =>
            if d <? target then
              do w <- nth_error ws i;
              do x <- skip target w;
              do q' <- (if fst x then pq_replace_top _ tdew_lt q (b_doc (snd x), i) else do y <- pq_pop _ tdew_lt q; Some (snd y));
              adv_loop k target (upd ws i (snd x)) q'
            else Some (ws, q)
        end
    end.
  (* 213-242 multi_tsc_advance_to *)
  Definition advance_to (target : Z) (s : mts) : option (bool * mts) :=
    do z <- match m_pq s with Some q => Some (m_ws s, q) | None => start_skip target (length (m_ws s)) (m_ws s) (pq_new _ (length (m_ws s))) end;
    if (pq_size (snd z) =? 0)%nat then Some (false, mkMts (fst z) (Some (snd z)) (-1) (m_sum s))
    else do y <- adv_loop (S (length (m_ws s))) target (fst z) (snd z);
         do top <- pq_top _ (snd y);
         Some (match top with None => false | Some _ => true end, mkMts (fst y) (Some (snd y)) (m_doc s) (m_sum s)).
  (* 244-247 multi_tsc_skip_to *)
  Definition multi_skip (target : Z) (s : mts) : option (bool * mts) :=
    do x <- advance_to target s;
    if fst x then multi_next (snd x) else Some x.
End MTS.
(* ir->terms (index.c sr_terms 4519-4524, mte_new) and te->skip_to *)
Definition terms (r : rdr) (f : Z) : option tenum :=
  match r with
  | ROne s => Some (EOne (ste_set_field (fst s) (snd s) ste_new f))
  | RMany mp srcs => do y <- mte_new srcs mp f None; Some (EMany (snd y))
  end.
Definition te_skip (r : rdr) (t : list Z) (e : tenum) : option (option (list Z) * tenum) :=
  match r, e with
  | ROne s, EOne e => do x <- ste_scan_to (fst s) (snd s) e t; Some (fst x, EOne (snd x))
  | RMany mp srcs, EMany m => do x <- mte_skip_to srcs m t; Some (fst x, EMany (snd x))
  | _, _ => None
  end.
(* 339-350: the wrappers of the terms that are there, with the numbers of the terms *)
Fixpoint open_terms (r : prdr) (ts : list (list Z)) (k : nat) (te : tenum) : option (list (nat * rbuf)) :=
  match ts with
  | [] => Some []
  | t :: ts' =>
      do x <- te_skip (rdr_of r) t te;
      if match fst x with Some u => seqb u t | None => false end then
        do de <- term_docs r;
        do de' <- pe_seek_te r (snd x) de;
        do l <- open_terms r ts' (S k) (snd x);
        Some ((k, rb_new TDEW_READ (-1) de') :: l)
      else open_terms r ts' (S k) (snd x)
  end.
(* 326-363 multi_tw_scorer on the terms in the order in which they are taken from the heap; None inside: no scorer.
   Also the number of the term of every wrapper *)
Definition multi_tw_scorer (r : prdr) (f : option Z) (ts : list (list Z)) : option (option (mts * list nat)) :=
  match ts, f with
  | _ :: _, Some n =>
      do te <- terms (rdr_of r) n;
      do l <- open_terms r ts O te;
      Some (match l with [] => None | _ => Some (mkMts (map snd l) None 0 [], map fst l) end)
  | _, _ => Some None
  end.
(* 334-335: from heap[size] to heap[1] *)
Definition query_terms (q : mtq) : option (list (list Z * Z)) :=
  fold_right (fun i (l : option (list (list Z * Z))) => do l' <- l; do x <- elt _ (pq_heap (b_terms q)) i; Some (l' ++ [x])) (Some []) (seq 1 (pq_size (b_terms q))).

(* ---------- operations of a scorer *)
Inductive sop := SNext | SSkip (d : Z).
Definition tsc_step (r : prdr) (del : Z -> bool) (b : rbuf) (o : sop) : option (option (Z * Z) * rbuf) :=
  do x <- match o with SNext => rb_next r del TSC_READ b | SSkip d => rb_skip r del d b end;
  do y <- tsc_seen x; Some (y, snd x).
Fixpoint tsc_run (r : prdr) (del : Z -> bool) (b : rbuf) (os : list sop) : option (list (option (Z * Z))) :=
  match os with [] => Some [] | o :: t => do x <- tsc_step r del b o; do q <- tsc_run r del (snd x) t; Some (fst x :: q) end.
Definition multi_step (r : prdr) (del : Z -> bool) (s : mts) (o : sop) : option (option (Z * list (nat * Z)) * mts) :=
  do x <- match o with SNext => multi_next r del s | SSkip d => multi_skip r del d s end;
  Some (if fst x then Some (m_doc (snd x), m_sum (snd x)) else None, snd x).
Fixpoint multi_run (r : prdr) (del : Z -> bool) (s : mts) (os : list sop) : option (list (option (Z * list (nat * Z)))) :=
  match os with [] => Some [] | o :: t => do x <- multi_step r del s o; do q <- multi_run r del (snd x) t; Some (fst x :: q) end.
