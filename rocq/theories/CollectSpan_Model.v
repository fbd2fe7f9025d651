(* Model of the highlighting of span queries, c/src/q_span.c: mv_to_term_mv (37-61), the dummy TermDocEnum on a term vector (63-148),
   spanq_get_matchv_i (150-181), the get_terms functions (1555-1560, 1644-1653, 1736-1740, 1848-1860, 2032-2044, 2202-2205), and the
   SpanMultiTermEnum (456-541, 610-642) as far as highlighting uses it.  The other enumerators are those of Span_Model; the field is one document, 0, and
   a term has the postings [(0, positions)], or none.
   A HashSet of terms is a list without duplicates.  None: undefined behaviour, or not enough fuel. *)
From Verif Require Import Util Strcmp PQueue_Model Match_Model Match_Spec Span_Model Collect_Model.
Open Scope Z_scope.

(* 37-61 mv_to_term_mv: the cells of full_mv from m_idx on *)
Fixpoint term_mv (ps : list Z) (cells : list (option mr)) : option (list (Z * Z)) :=
  match ps with
  | [] => Some []
  | p :: r =>
      (fix skip (cells : list (option mr)) : option (list (Z * Z)) :=
         match cells with
         | [] => term_mv r []
         | c :: cs => do m <- c; if p <=? m_end m then do more <- term_mv r cells; Some (if m_start m <=? p then (p, p) :: more else more) else skip cs
         end) cells
  end.
Fixpoint terms_mv (v : tv) (terms : list str) (cells : list (option mr)) : option (list (Z * Z)) :=
  match terms with
  | [] => Some []
  | t :: r => do x <- get_term v t; do here <- (match x with Some ps => term_mv ps cells | None => Some [] end); do more <- terms_mv v r cells; Some (here ++ more)
  end.
Definition v_cells (w : mvec) : list (option mr) := firstn (v_size w) (v_mem w).

(* spante_skip_to (351-376) with tv_tde_skip_to (104-115): the dummy says yes to document 0 whatever the term; freq and positions of a missing term
   were never written.  Also None, as it does not happen: a second time document 0, a negative document, other postings *)
Definition tv_skip (pos : Z) (rest : list (Z * list Z)) (d : Z) : option (bool * se) :=
  match rest with
  | [] => if d =? 0 then None else Some (false, STerm INT_MAX pos [] [])
  | [(0, p :: t)] => if d =? 0 then Some (true, STerm 0 p t []) else if 0 <? d then Some (false, STerm INT_MAX pos [] []) else None
  | _ => None
  end.
(* next and skip_to of the enumerators on a term vector *)
Fixpoint tv_run (fuel : nat) (op : option Z) (s : se) : option (bool * se) :=
  match fuel with
  | O => None
  | S f =>
      match s with
      | STerm doc pos now rest => match op with None => term_next doc pos now rest | Some d => tv_skip pos rest d end
      | SFirst last sub => match op with None => first_next (tv_run f) f last sub | Some d => first_skip (tv_run f) f last sub d end
      | SOr ft q subs => match op with None => or_next (tv_run f) ft q subs | Some d => or_skip (tv_run f) f ft q subs d end
      | SNear o slop cur doc st en subs => near_move (tv_run f) f op o slop cur doc st en subs
      | SNot mi me inc exc => match op with None => not_next (tv_run f) f mi me inc exc | Some d => not_skip (tv_run f) f mi me inc exc d end
      end
  end.
(* get_spans, as in Span_Model.spans_of *)
Fixpoint tv_spans_of (fuel : nat) (q : squery) : option se :=
  match q with
  | QTerm l => Some (STerm (-1) (-1) [] l)
  | QFirst e q => do s <- tv_spans_of fuel q; Some (SFirst e s)
  | QOr qs => do l <- Span_Model.all_some (map (tv_spans_of fuel) qs); match l with [s] => Some s | _ => Some (SOr true (pq_new se (length l)) l) end
  | QNear o slop qs => do l <- Span_Model.all_some (map (tv_spans_of fuel) qs); match l with [s] => Some s | _ => Some (SNear o slop 0 (-1) (-1) (-1) l) end
  | QNot a b => do i <- tv_spans_of fuel a; do e <- tv_spans_of fuel b; do r <- tv_run fuel None e; Some (SNot true (fst r) i (snd r))
  end.
Fixpoint tv_enum (fuel : nat) (s : se) : option (list span) :=
  match fuel with O => None | S f => do r <- tv_run f None s; if fst r then do v <- val (snd r); do l <- tv_enum f (snd r); Some (v :: l) else Some [] end.
Definition tv_enumerate (fuel : nat) (q : squery) : option (list span) := do s <- tv_spans_of fuel q; tv_enum fuel s.

(* span queries with their terms *)
Inductive tsq := GTerm (t : str) | GFirst (last : Z) (q : tsq) | GOr (qs : list tsq) | GNear (in_order : bool) (slop : Z) (qs : list tsq) | GNot (inc exc : tsq).
Fixpoint g_terms (q : tsq) : list str :=
  match q with
  | GTerm t => [t]
  | GFirst _ q => g_terms q
  | GOr qs | GNear _ _ qs => flat_map g_terms qs
  | GNot inc _ => g_terms inc
  end.
Fixpoint on_tv (v : tv) (q : tsq) : option squery :=
  match q with
  | GTerm t => do x <- get_term v t; Some (QTerm (match x with Some ps => [(0, ps)] | None => [] end))
  | GFirst e q => do s <- on_tv v q; Some (QFirst e s)
  | GOr qs => do l <- Span_Model.all_some (map (on_tv v) qs); Some (QOr l)
  | GNear o slop qs => do l <- Span_Model.all_some (map (on_tv v) qs); Some (QNear o slop l)
  | GNot a b => do x <- on_tv v a; do y <- on_tv v b; Some (QNot x y)
  end.
Definition str_dec : forall a b : str, {a = b} + {a <> b} := list_eq_dec Z.eq_dec.
Section SORT.
  Variable qsort : (mr -> mr -> Z) -> list mr -> list mr.
  (* 150-181 spanq_get_matchv_i, from the spans on *)
  Definition from_spans (v : tv) (terms : list str) (l : list (Z * Z)) : option (list (Z * Z)) :=
    do w <- compact qsort false (vec_of (map (fun x => (fst x, snd x - 1)) l)); terms_mv v (nodup str_dec terms) (v_cells w).
  Definition spanq_matchv (fuel : nat) (v : tv) (field : Z) (q : tsq) : option (list (Z * Z)) :=
    if tv_field v =? field then do s <- on_tv v q; do l <- tv_enumerate fuel s; from_spans v (g_terms q) (map (fun x => (s_st x, s_en x)) l) else Some [].
End SORT.

(* ---------- SpanMultiTermQuery: 456-541 the wrapper of a TermDocEnum; w_left is what is behind the index in positions, None if positions was never
   written; w_tde the document of the dummy *)
Record tpew := mkW { w_doc : Z; w_pos : Z; w_tde : Z; w_left : option (list Z) }.
Definition w_lt (a b : tpew) : bool := (w_doc a <? w_doc b) || ((w_doc a =? w_doc b) && (w_pos a <? w_pos b)).
Definition next_position (w : tpew) : option (Z * list Z) := do ps <- w_left w; match ps with p :: t => Some (p, t) | [] => None end.
(* 475-484 tpew_next *)
Definition tpew_next (w : tpew) : option (bool * tpew) :=
  do x <- next_position w;
  if fst x <? 0 then
    if w_tde w =? -1 then do y <- next_position (mkW 0 (fst x) 0 (Some (snd x))); Some (true, mkW 0 (fst y) 0 (Some (snd y)))
    else Some (false, mkW (w_doc w) (fst x) INT_MAX (Some (snd x)))
  else Some (true, mkW (w_doc w) (fst x) (w_tde w) (Some (snd x))).
(* 70-88 tv_tde_seek, 502-510 tpew_new *)
Definition tpew_new (v : tv) (t : str) : option tpew := do x <- get_term v t; Some (match x with Some ps => mkW (-1) (-1) (-1) (Some ps) | None => mkW (-1) (-1) INT_MAX None end).
Fixpoint mt_fill (ws : list tpew) (q : pq tpew) : option (pq tpew) :=
  match ws with
  | [] => Some q
  | w :: r => do x <- tpew_next w; do q' <- (if fst x then pq_push tpew w_lt q (snd x) else Some q); mt_fill r q'
  end.
(* the loop of 537-546 *)
Fixpoint mt_loop (fuel : nat) (d p : Z) (q : pq tpew) : option (pq tpew) :=
  match fuel with
  | O => None
  | S f =>
      do t <- (do y <- pq_top tpew q; y);
      do x <- tpew_next t;
      do q' <- (if fst x then pq_replace_top tpew w_lt q (snd x) else do y <- pq_pop tpew w_lt q; Some (snd y));
      do y <- pq_top tpew q';
      match y with Some t' => if (w_doc t' =? d) && (w_pos t' =? p) then mt_loop f d p q' else Some q' | None => Some q' end
  end.
(* 516-549 spanmte_next, called until it says no *)
Fixpoint mt_enum (fuel : nat) (q : pq tpew) : option (list (Z * Z)) :=
  match fuel with
  | O => None
  | S f =>
      do t <- pq_top tpew q;
      match t with
      | None => Some []
      | Some t => do q' <- mt_loop f (w_doc t) (w_pos t) q; do l <- mt_enum f q'; Some ((w_pos t, w_pos t + 1) :: l)
      end
  end.
Definition multi_span_matchv (qsort : (mr -> mr -> Z) -> list mr -> list mr) (fuel : nat) (v : tv) (field : Z) (terms : list str) : option (list (Z * Z)) :=
  if tv_field v =? field then
    do ws <- Span_Model.all_some (map (tpew_new v) terms);
    do q <- mt_fill (rev ws) (pq_new tpew (length terms));
    do l <- mt_enum fuel q;
    from_spans qsort v terms l
  else Some [].
