(* Model of the span enumerators and the span scorer, c/src/q_span.c: SpanScorer (190-316), SpanTermEnum (318-460), SpanFirstEnum
   (650-745), SpanOrEnum (747-936), SpanNearEnum (938-1245) and SpanNotEnum (1247-1385).
   A SpanTermEnum stands on the postings of its term: documents with the positions in each.  tde->skip_to goes at least one document
   forward.  sne->first_time is true from spanne_new on and could only become false where it is false already, so sne_init (962-976)
   never runs and is left out, as are scores and SpanMultiTermEnum.  None is undefined behaviour (the top of an empty queue) or not
   enough fuel. *)
From Verif Require Import Util PQueue_Model.
Open Scope Z_scope.

Record span := mkSp { s_doc : Z; s_st : Z; s_en : Z }.
Definition INT_MAX : Z := 2147483647.
Inductive se :=
| STerm (doc pos : Z) (now : list Z) (rest : list (Z * list Z))    (* positions left in the document; documents left *)
| SFirst (last : Z) (sub : se)
| SOr (first_time : bool) (queue : pq se) (subs : list se)
| SNear (in_order : bool) (slop : Z) (current : nat) (doc st en : Z) (subs : list se)
| SNot (more_inc more_exc : bool) (inc exc : se).

(* self->doc, self->start, self->end *)
Fixpoint val (s : se) : option span :=
  match s with
  | STerm doc pos _ _ => Some (mkSp doc pos (pos + 1))
  | SFirst _ sub => val sub
  | SOr _ q _ => match pq_size q, pq_heap q with S _, _ :: Some t :: _ => val t | _, _ => None end
  | SNear _ _ _ doc st en _ => Some (mkSp doc st en)
  | SNot _ _ inc _ => val inc
  end.
(* 764-780 span_less_than *)
Definition span_lt (a b : span) : bool :=
  if s_doc a =? s_doc b then (if s_st a =? s_st b then s_en a <? s_en b else s_st a <? s_st b) else s_doc a <? s_doc b.
(* only spans that stand on something get into a queue *)
Definition val_d (s : se) : span := match val s with Some v => v | None => mkSp (-1) (-1) (-1) end.
Definition se_lt (a b : se) : bool := span_lt (val_d a) (val_d b).

(* 332-349 spante_next *)
Definition term_next (doc pos : Z) (now : list Z) (rest : list (Z * list Z)) : option (bool * se) :=
  match now with
  | p :: t => Some (true, STerm doc p t rest)
  | [] => match rest with
          | [] => Some (false, STerm INT_MAX pos [] [])
          | (d, p :: t) :: r => Some (true, STerm d p t r)
          | (d, []) :: r => None
          end
  end.
Fixpoint docs_from (d : Z) (l : list (Z * list Z)) : list (Z * list Z) := match l with [] => [] | (x, p) :: t => if x <? d then docs_from d t else l end.
(* 351-376 spante_skip_to *)
Definition term_skip (pos : Z) (rest : list (Z * list Z)) (d : Z) : option (bool * se) := term_next INT_MAX pos [] (docs_from d rest).

Section CALL.
  Variable call : option Z -> se -> option (bool * se).   (* next (None) and skip_to of a sub-enumerator *)
  Notation next := (call None).
  (* 666-676 spanfe_next *)
  Fixpoint first_next (fuel : nat) (last : Z) (sub : se) : option (bool * se) :=
    match fuel with
    | O => None
    | S f => do r <- next sub;
             if fst r then do v <- val (snd r); if s_en v <=? last then Some (true, SFirst last (snd r)) else first_next f last (snd r)
             else Some (false, SFirst last (snd r))
    end.
  (* 678-692 spanfe_skip_to *)
  Definition first_skip (fuel : nat) (last : Z) (sub : se) (d : Z) : option (bool * se) :=
    do r <- call (Some d) sub;
    if fst r then do v <- val (snd r); if s_en v <=? last then Some (true, SFirst last (snd r)) else first_next fuel last (snd r)
    else Some (false, SFirst last (snd r)).
  (* ---------- SpanOrEnum *)
  (* the loops of 739-744 and 772-777 *)
  Fixpoint or_fill (op : option Z) (subs : list se) (q : pq se) : option (pq se) :=
    match subs with
    | [] => Some q
    | s :: t => do r <- call op s; if fst r then do q' <- pq_push se se_lt q (snd r); or_fill op t q' else or_fill op t q
    end.
  Definition or_top (q : pq se) : option se := do t <- pq_top se q; t.
  Definition or_done (q : pq se) (subs : list se) : option (bool * se) := Some (negb (pq_size q =? 0)%nat, SOr false q subs).
  (* 782-812 spanoe_next *)
  Definition or_next (first_time : bool) (q : pq se) (subs : list se) : option (bool * se) :=
    if first_time then do q' <- or_fill None subs q; or_done q' subs
    else if (pq_size q =? 0)%nat then Some (false, SOr false q subs)
    else do t <- or_top q;
         do r <- next t;
         if fst r then do q' <- pq_replace_top se se_lt q (snd r); Some (true, SOr false q' subs)
         else do p <- pq_pop se se_lt q; or_done (snd p) subs.
  (* the loop of 780-790 *)
  Fixpoint or_skip_loop (fuel : nat) (q : pq se) (d : Z) : option (pq se) :=
    match fuel with
    | O => None
    | S f =>
        if (pq_size q =? 0)%nat then Some q
        else do t <- or_top q; do v <- val t;
             if s_doc v <? d then
               do r <- call (Some d) t;
               if fst r then do q' <- pq_replace_top se se_lt q (snd r); or_skip_loop f q' d else do p <- pq_pop se se_lt q; or_skip_loop f (snd p) d
             else Some q
    end.
  (* 814-845 spanoe_skip_to *)
  Definition or_skip (fuel : nat) (first_time : bool) (q : pq se) (subs : list se) (d : Z) : option (bool * se) :=
    if first_time then do q' <- or_fill (Some d) subs q; or_done q' subs
    else do q' <- or_skip_loop fuel q d; or_done q' subs.
  (* ---------- SpanNearEnum *)
  Definition ring (i n : nat) : nat := ((i + 1) mod n)%nat.
  Definition doc_at (subs : list se) (i : nat) : option Z := do s <- nth_error subs i; do v <- val s; Some (s_doc v).
  (* the loop of 978-993 sne_goto_next_doc; the result: found, current, the clauses *)
  Fixpoint goto_loop (fuel : nat) (cur : nat) (prev : Z) (subs : list se) : option (bool * nat * list se) :=
    match fuel with
    | O => None
    | S f =>
        do s <- nth_error subs cur;
        do v <- val s;
        if s_doc v <? prev then
          do r <- call (Some prev) s;
          if fst r then do v' <- val (snd r); goto_loop f (ring cur (length subs)) (s_doc v') (upd subs cur (snd r))
          else Some (false, cur, upd subs cur (snd r))
        else Some (true, cur, subs)
    end.
  Definition goto_next_doc (fuel : nat) (cur : nat) (subs : list se) : option (bool * nat * list se) :=
    do d <- doc_at subs cur; goto_loop fuel (ring cur (length subs)) d subs.
  (* the loop of 1007-1019: largest end, smallest start with its clause, sum of the lengths *)
  Fixpoint unord_scan (i : nat) (subs : list se) (mx mn : Z) (at_ : option nat) (sum : Z) : option (Z * Z * option nat * Z) :=
    match subs with
    | [] => Some (mx, mn, at_, sum)
    | s :: t => do v <- val s;
                unord_scan (S i) t (if mx <? s_en v then s_en v else mx) (if s_st v <? mn then s_st v else mn) (if s_st v <? mn then Some i else at_) (sum + (s_en v - s_st v))
    end.
  (* 995-1038 sne_next_unordered_match *)
  Fixpoint unordered (fuel : nat) (slop : Z) (subs : list se) (cur : nat) (doc st en : Z) : option (bool * se) :=
    match fuel with
    | O => None
    | S f =>
        do r <- unord_scan 0 subs 0 INT_MAX None 0;
        let '(mx, mn, at_, sum) := r in
        do m <- at_;
        do s <- nth_error subs m;
        do v <- val s;
        if mx - mn - sum <=? slop then Some (true, SNear false slop m (s_doc v) mn mx subs)
        else
          do x <- next s;
          if fst x then
            do v' <- val (snd x);
            if s_doc v <? s_doc v' then
              do g <- goto_next_doc f m (upd subs m (snd x));
              let '(b, c, l) := g in
              if b then unordered f slop l c doc st en else Some (false, SNear false slop c doc st en l)
            else unordered f slop (upd subs m (snd x)) m doc st en
          else Some (false, SNear false slop m doc st en (upd subs m (snd x)))
    end.
  (* 1060-1082: the clause goes on while it starts before the previous one; false: there is no next span *)
  Fixpoint ord_adv (fuel : nat) (p : span) (s : se) : option (bool * se) :=
    match fuel with
    | O => None
    | S f => do v <- val s;
             if (s_doc v =? s_doc p) && ((s_st v <? s_st p) || ((s_st v =? s_st p) && (s_en v <? s_en p))) then
               do r <- next s; if fst r then ord_adv f p (snd r) else Some r
             else Some (true, s)
    end.
  Inductive oinner := OFail (cur : nat) (subs : list se) | OAgain (cur : nat) (subs : list se) | OEnd (e : span) (sum : Z) (subs : list se).
  (* 1056-1088, for n more clauses from i on; p: the span of the clause before *)
  Fixpoint ord_inner (fuel n i : nat) (p : span) (sum : Z) (subs : list se) (cur : nat) : option oinner :=
    match n with
    | O => Some (OEnd p sum subs)
    | S m =>
        do s <- nth_error subs i;
        do r <- ord_adv fuel p s;
        if fst r then
          do v <- val (snd r);
          if s_doc v =? s_doc p then ord_inner fuel m (S i) v (sum + (s_en v - s_st v)) (upd subs i (snd r)) cur
          else do g <- goto_next_doc fuel i (upd subs i (snd r)); let '(b, c, l) := g in Some (if b then OAgain c l else OFail c l)
        else Some (OFail cur (upd subs i (snd r)))
    end.
  (* 1040-1112 sne_next_ordered_match *)
  Fixpoint ordered (fuel : nat) (slop : Z) (subs : list se) (cur : nat) (doc st en : Z) : option (bool * se) :=
    match fuel with
    | O => None
    | S f =>
        do s <- nth_error subs 0;
        do v <- val s;
        do r <- ord_inner f (length subs - 1) 1 v (s_en v - s_st v) subs cur;
        match r with
        | OFail c l => Some (false, SNear true slop c doc (s_st v) en l)
        | OAgain c l => ordered f slop l c doc (s_st v) en
        | OEnd e sum l =>
            if s_en e - s_st v - sum <=? slop then Some (true, SNear true slop 0 (s_doc e) (s_st v) (s_en e) l)
            else
              do s0 <- nth_error l 0;
              do x <- next s0;
              if fst x then
                do v' <- val (snd x);
                if s_doc v' =? s_doc e then ordered f slop (upd l 0 (snd x)) cur doc (s_st v) en
                else
                  do g <- goto_next_doc f 0 (upd l 0 (snd x));
                  let '(b, c, l') := g in
                  if b then ordered f slop l' c doc (s_st v) en else Some (false, SNear true slop c doc (s_st v) en l')
              else Some (false, SNear true slop cur doc (s_st v) en (upd l 0 (snd x)))
        end
    end.
  (* 1114-1139 sne_next_match *)
  Definition near_match (fuel : nat) (o : bool) (slop : Z) (cur : nat) (doc st en : Z) (subs : list se) : option (bool * se) :=
    do d <- doc_at subs cur;
    do d' <- doc_at subs (ring cur (length subs));
    if d' <? d then
      do g <- goto_next_doc fuel cur subs;
      let '(b, c, l) := g in
      if b then (if o then ordered else unordered) fuel slop l c doc st en else Some (false, SNear o slop c doc st en l)
    else (if o then ordered else unordered) fuel slop subs cur doc st en.
  (* 1141-1160 spanne_next, spanne_skip_to *)
  Definition near_move (fuel : nat) (op : option Z) (o : bool) (slop : Z) (cur : nat) (doc st en : Z) (subs : list se) : option (bool * se) :=
    do s <- nth_error subs cur;
    do r <- call op s;
    if fst r then near_match fuel o slop cur doc st en (upd subs cur (snd r)) else Some (false, SNear o slop cur doc st en (upd subs cur (snd r))).
  (* ---------- SpanNotEnum *)
  (* the loops of 1288-1292 and 1322-1326: exc goes on while it is before inc *)
  Fixpoint not_before (fuel : nat) (inc : span) (more_exc : bool) (exc : se) : option (bool * se) :=
    match fuel with
    | O => None
    | S f => if more_exc then do e <- val exc; if (s_doc inc =? s_doc e) && (s_en e <=? s_st inc) then do r <- next exc; not_before f inc (fst r) (snd r) else Some (true, exc)
             else Some (false, exc)
    end.
  Definition apart (inc e : span) : bool := negb (s_doc inc =? s_doc e) || (s_en inc <=? s_st e).
  (* the loop of 1283-1302 *)
  Fixpoint not_loop (fuel : nat) (more_inc more_exc : bool) (inc exc : se) : option (bool * se) :=
    match fuel with
    | O => None
    | S f =>
        if more_inc && more_exc then
          do i <- val inc;
          do e <- val exc;
          do r <- (if s_doc e <? s_doc i then call (Some (s_doc i)) exc else Some (true, exc));
          do x <- not_before f i (fst r) (snd r);
          if fst x then
            do e' <- val (snd x);
            if apart i e' then Some (true, SNot true true inc (snd x))
            else do y <- next inc; not_loop f (fst y) true (snd y) (snd x)
          else Some (true, SNot true false inc (snd x))
        else Some (more_inc, SNot more_inc more_exc inc exc)
    end.
  (* 1264-1292 spanxe_next *)
  Definition not_next (fuel : nat) (more_inc more_exc : bool) (inc exc : se) : option (bool * se) :=
    do r <- (if more_inc then next inc else Some (false, inc)); not_loop fuel (fst r) more_exc (snd r) exc.
  (* 1294-1321 spanxe_skip_to *)
  Definition not_skip (fuel : nat) (more_inc more_exc : bool) (inc exc : se) (d : Z) : option (bool * se) :=
    do r <- (if more_inc then call (Some d) inc else Some (false, inc));
    if more_inc && negb (fst r) then Some (false, SNot false more_exc (snd r) exc)
    else
      do i <- val (snd r);
      do x <- (if more_inc then do e <- val exc; if s_doc e <? s_doc i then call (Some (s_doc i)) exc else Some (more_exc, exc) else Some (more_exc, exc));
      do y <- not_before fuel i (fst x) (snd x);
      if fst y then
        do e' <- val (snd y);
        if apart i e' then Some (true, SNot more_inc true (snd r) (snd y)) else not_next fuel more_inc true (snd r) (snd y)
      else Some (true, SNot more_inc false (snd r) (snd y)).
End CALL.

(* self->next and self->skip_to *)
Fixpoint run (fuel : nat) (op : option Z) (s : se) : option (bool * se) :=
  match fuel with
  | O => None
  | S f =>
      match s with
      | STerm doc pos now rest => match op with None => term_next doc pos now rest | Some d => term_skip pos rest d end
      | SFirst last sub => match op with None => first_next (run f) f last sub | Some d => first_skip (run f) f last sub d end
      | SOr ft q subs => match op with None => or_next (run f) ft q subs | Some d => or_skip (run f) f ft q subs d end
      | SNear o slop cur doc st en subs => near_move (run f) f op o slop cur doc st en subs
      | SNot mi me inc exc => match op with None => not_next (run f) f mi me inc exc | Some d => not_skip (run f) f mi me inc exc d end
      end
  end.

(* ---------- queries and their enumerators *)
Inductive squery :=
| QTerm (postings : list (Z * list Z))
| QFirst (last : Z) (q : squery)
| QOr (qs : list squery)
| QNear (in_order : bool) (slop : Z) (qs : list squery)
| QNot (inc exc : squery).
Fixpoint all_some {A} (l : list (option A)) : option (list A) := match l with [] => Some [] | o :: t => do x <- o; do r <- all_some t; Some (x :: r) end.
(* 425-446 spante_new, 727-743 spanfe_new, 1862-1871 and 904-936 spanoe_new, 2046-2056 and 1210-1243 spanne_new, 1357-1382 spanxe_new *)
Fixpoint spans_of (fuel : nat) (q : squery) : option se :=
  match q with
  | QTerm l => Some (STerm (-1) (-1) [] l)
  | QFirst e q => do s <- spans_of fuel q; Some (SFirst e s)
  | QOr qs => do l <- all_some (map (spans_of fuel) qs); match l with [s] => Some s | _ => Some (SOr true (pq_new se (length l)) l) end
  | QNear o slop qs => do l <- all_some (map (spans_of fuel) qs); match l with [s] => Some s | _ => Some (SNear o slop 0 (-1) (-1) (-1) l) end
  | QNot a b => do i <- spans_of fuel a; do e <- spans_of fuel b; do r <- run fuel None e; Some (SNot true (fst r) i (snd r))
  end.

(* ---------- 182-250 SpanScorer: doc, first_time, more, the number of spans counted into freq, the enumerator *)
Record scorer := mkSc { c_doc : Z; c_first : bool; c_more : bool; c_freq : nat; c_spans : se }.
(* the loop of 217-221 *)
Fixpoint count_loop (fuel : nat) (doc : Z) (n : nat) (s : se) : option (bool * nat * se) :=
  match fuel with
  | O => None
  | S f => do r <- run f None s; if fst r then do v <- val (snd r); if s_doc v =? doc then count_loop f doc (S n) (snd r) else Some (true, n, snd r) else Some (false, n, snd r)
  end.
(* 214-239 spansc_next; a frequency is not 0 as soon as a span was counted: sim_sloppy_freq is 1 / (distance + 1) *)
Definition sc_next (fuel : nat) (c : scorer) : option (bool * scorer) :=
  do r <- (if c_first c then run fuel None (c_spans c) else Some (c_more c, c_spans c));
  if fst r then
    do v <- val (snd r);
    do x <- count_loop fuel (s_doc v) 1 (snd r);
    let '(more, n, s) := x in
    Some (more || negb (n =? 0)%nat, mkSc (s_doc v) false more n s)
  else Some (false, mkSc (c_doc c) false false (c_freq c) (snd r)).
(* 241-263 spansc_skip_to *)
Fixpoint skip_loop (fuel : nat) (target : Z) (first more : bool) (n : nat) (s : se) : option (bool * bool * nat * se) :=
  match fuel with
  | O => None
  | S f => if more then do v <- val s; if s_doc v =? target then do r <- run f None s; skip_loop f target false (fst r) (S n) (snd r) else Some (first, true, n, s)
           else Some (first, false, n, s)
  end.
Definition sc_skip (fuel : nat) (c : scorer) (d : Z) : option (bool * scorer) :=
  do r <- run fuel (Some d) (c_spans c);
  if fst r then
    do v <- val (snd r);
    do x <- skip_loop fuel d (c_first c) true 0 (snd r);
    let '(first, more, n, s) := x in
    Some (more || negb (n =? 0)%nat, mkSc (s_doc v) first more n s)
  else Some (false, mkSc (c_doc c) (c_first c) false (c_freq c) (snd r)).
Definition sc_move (fuel : nat) (op : option Z) (c : scorer) : option (bool * scorer) := match op with None => sc_next fuel c | Some d => sc_skip fuel c d end.
(* 288-316 spansc_new; the search loop *)
Definition sc_new (s : se) : scorer := mkSc 0 true true 0 s.
(* the documents with their numbers of spans *)
Fixpoint sc_hits (fuel : nat) (c : scorer) : option (list (Z * nat)) :=
  match fuel with O => None | S f => do r <- sc_next f c; if fst r then do l <- sc_hits f (snd r); Some ((c_doc (snd r), c_freq (snd r)) :: l) else Some [] end.
Definition search (fuel : nat) (q : squery) : option (list (Z * nat)) := do s <- spans_of fuel q; sc_hits fuel (sc_new s).
(* all spans of an enumerator, by next *)
Fixpoint enum (fuel : nat) (s : se) : option (list span) :=
  match fuel with O => None | S f => do r <- run f None s; if fst r then do v <- val (snd r); do l <- enum f (snd r); Some (v :: l) else Some [] end.
Definition enumerate (fuel : nat) (q : squery) : option (list span) := do s <- spans_of fuel q; enum fuel s.
