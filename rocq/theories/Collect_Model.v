(* Model of how queries collect the positions to be highlighted: c/src/term_vectors.c 27-75, the get_matchv_i functions of c/src/search.c
   435-440, q_term.c 303-318, q_multi_term.c 603-623, q_range.c 465-497 and 556-640, q_boolean.c 1326-1337 and q_phrase.c 718-946
   (spans: CollectSpan_Model).
   A term vector has for each term its positions (freq of them).  The matches are the list of the ranges given to matchv_add, in order.
   The array of a TVPosEnum with its index is the list of the positions behind the index.  Integers do not overflow.
   None: undefined behaviour, or not enough fuel. *)
From Verif Require Import Util Strcmp PQueue_Model Match_Model Match_Spec.
From Verif Require Range_Model.
Open Scope Z_scope.
Notation str := (list Z).
Record tv := mkTv { tv_field : Z; tv_terms : list (str * list Z) }.

(* term_vectors.c 27-50 tv_scan_to_term_index *)
Fixpoint scan_loop (fuel : nat) (ts : list (str * list Z)) (term : str) (lo hi : Z) : option Z :=
  match fuel with
  | O => None
  | S f =>
      if lo <=? hi then
        let mid := (lo + hi) / 2 in
        do t <- nth_error ts (Z.to_nat mid);
        match scmp term (fst t) with
        | Lt => scan_loop f ts term lo (mid - 1)
        | Gt => scan_loop f ts term (mid + 1) hi
        | Eq => Some mid
        end
      else Some lo
  end.
Definition scan_to (v : tv) (term : str) : option Z := let n := length (tv_terms v) in scan_loop (S n) (tv_terms v) term 0 (Z.of_nat n - 1).
(* 52-75 tv_get_term_index, tv_get_tv_term: the positions of the term *)
Definition get_term (v : tv) (term : str) : option (option (list Z)) :=
  do i <- scan_to v term;
  if i <? Z.of_nat (length (tv_terms v)) then
    do t <- nth_error (tv_terms v) (Z.to_nat i);
    Some (if seqb term (fst t) then Some (snd t) else None)
  else Some None.
(* for (j = 0; j < tv_term->freq; j++) matchv_add(mv, pos, pos) *)
Definition each (ps : list Z) : list (Z * Z) := map (fun p => (p, p)) ps.

(* q_term.c 303-318 tq_get_matchv_i *)
Definition tq_matchv (v : tv) (field : Z) (term : str) : option (list (Z * Z)) :=
  if tv_field v =? field then do r <- get_term v term; Some (match r with Some ps => each ps | None => [] end) else Some [].
(* q_multi_term.c 603-623 multi_tq_get_matchv_i; the terms in the array of the queue, the last one first *)
Fixpoint multi_loop (v : tv) (terms : list str) : option (list (Z * Z)) :=
  match terms with
  | [] => Some []
  | t :: r => do x <- get_term v t; do l <- multi_loop v r; Some (match x with Some ps => each ps | None => [] end ++ l)
  end.
Definition multi_matchv (v : tv) (field : Z) (heap : list str) : option (list (Z * Z)) := if tv_field v =? field then multi_loop v (rev heap) else Some [].

(* q_range.c 465-497 rq_get_matchv_i *)
Fixpoint range_loop (g : Range_Model.range) (ts : list (str * list Z)) : list (Z * Z) :=
  match ts with
  | [] => []
  | t :: r => if match Range_Model.r_upper g with Some u => if Range_Model.r_incu g then sltb u (fst t) else sleb u (fst t) | None => false end then []
              else each (snd t) ++ range_loop g r
  end.
Definition rq_matchv (v : tv) (field : Z) (g : Range_Model.range) : option (list (Z * Z)) :=
  if tv_field v =? field then
    do i <- (match Range_Model.r_lower g with Some l => scan_to v l | None => Some 0 end);
    do j <- (match Range_Model.r_lower g with
             | Some l => if (i <? Z.of_nat (length (tv_terms v))) && negb (Range_Model.r_incl g) then do t <- nth_error (tv_terms v) (Z.to_nat i); Some (if seqb l (fst t) then i + 1 else i) else Some i
             | None => Some i
             end);
    Some (range_loop g (skipn (Z.to_nat j) (tv_terms v)))
  else Some [].
(* 556-640 trq_get_matchv_i: sscanf and the doubles as in Range_Model; num is declared in the loop, so it is indeterminate unless sscanf writes it *)
Section TYPED.
  Variables (num : Type) (nle nlt : num -> num -> bool) (zero : num) (sscanf : str -> Range_Model.scanres num).
  Fixpoint set_terms (cond : num -> bool) (len : Z) (ts : list (str * list Z)) : option (list (Z * Z)) :=
    match ts with
    | [] => Some []
    | t :: r =>
        let '(x, l) := match sscanf (fst t) with Range_Model.SOk _ x l => (Some x, l) | _ => (None, len) end in
        do here <- (if Z.of_nat (length (fst t)) =? l then do n <- x; Some (if cond n then each (snd t) else []) else Some []);
        do more <- set_terms cond l r;
        Some (here ++ more)
    end.
  Definition trq_matchv (v : tv) (field : Z) (g : Range_Model.range) : option (list (Z * Z)) :=
    if tv_field v =? field then
      let '(b1, lo, l1) := Range_Model.bound num zero sscanf (Range_Model.r_lower g) 0 in
      let '(b2, hi, l2) := (if b1 then Range_Model.bound num zero sscanf (Range_Model.r_upper g) l1 else (false, zero, l1)) in
      if b1 && b2 then set_terms (Range_Model.within_num num nle nlt g lo hi) l2 (rev (tv_terms v))
      else rq_matchv v field g
    else Some [].
End TYPED.

(* ---------- phrases *)
Record tvpe := mkPe { e_pos : Z; e_left : list Z; e_off : Z }.
(* q_phrase.c 764-773 tvpe_new *)
Definition tvpe_new (ps : list Z) (off : Z) : tvpe := mkPe (-1) ps off.
(* 728-738 tvpe_next *)
Definition tvpe_next (p : tvpe) : bool * tvpe :=
  match e_left p with
  | x :: t => (true, mkPe (x - e_off p) t (e_off p))
  | [] => (false, mkPe (-1) [] (e_off p))
  end.
Fixpoint drop_before (d : Z) (l : list Z) : list Z := match l with [] => [] | x :: t => if d <=? x then l else drop_before d t end.
(* 740-756 tvpe_skip_to *)
Definition tvpe_skip_to (p : tvpe) (position : Z) : bool * tvpe :=
  match drop_before (position + e_off p) (e_left p) with
  | x :: t => (true, mkPe (x - e_off p) t (e_off p))
  | [] => (false, mkPe (-1) [] (e_off p))
  end.
(* 758-761 tvpe_lt *)
Definition tvpe_lt (a b : tvpe) : bool := e_pos a <? e_pos b.
(* 775-817 tvpe_new_merge *)
Fixpoint merge_fill (v : tv) (terms : list str) (q : pq tvpe) (total : nat) : option (pq tvpe * nat) :=
  match terms with
  | [] => Some (q, total)
  | t :: r =>
      do x <- get_term v t;
      match x with
      | Some ps => do q' <- pq_push tvpe tvpe_lt q (snd (tvpe_next (tvpe_new ps 0))); merge_fill v r q' (total + length ps)
      | None => merge_fill v r q total
      end
  end.
Fixpoint merge_loop (fuel : nat) (q : pq tvpe) : option (list Z) :=
  match fuel with
  | O => None
  | S f =>
      if (pq_size q =? 0)%nat then Some []
      else
        do t <- (do y <- pq_top tvpe q; y);
        let n := tvpe_next t in
        do q' <- (if fst n then pq_replace_top tvpe tvpe_lt q (snd n) else do y <- pq_pop tvpe tvpe_lt q; Some (snd y));
        do r <- merge_loop f q';
        Some (e_pos t :: r)
  end.
Definition tvpe_new_merge (v : tv) (terms : list str) (off : Z) : option (option tvpe) :=
  do x <- merge_fill v terms (pq_new tvpe (length terms)) 0;
  if (pq_size (fst x) =? 0)%nat then Some None
  else do ps <- merge_loop (S (snd x)) (fst x); if (length ps <=? snd x)%nat then Some (Some (tvpe_new ps off)) else None.
(* 819-832 get_tvpe *)
Definition get_tvpe (v : tv) (terms : list str) (off : Z) : option (option tvpe) :=
  match terms with
  | [t] => do x <- get_term v t; Some (option_map (fun ps => tvpe_new ps off) x)
  | _ => tvpe_new_merge v terms off
  end.
(* 844-862: the first positions; None: done *)
Fixpoint sloppy_fill (v : tv) (poss : list (Z * list str)) (q : pq tvpe) (last : Z) : option (option (pq tvpe * Z)) :=
  match poss with
  | [] => Some (Some (q, last))
  | (off, terms) :: r =>
      do x <- get_tvpe v terms off;
      match x with
      | Some e =>
          let n := tvpe_next e in
          if fst n then do q' <- pq_push tvpe tvpe_lt q (snd n); sloppy_fill v r q' (if last <? e_pos (snd n) then e_pos (snd n) else last)
          else Some None
      | None => Some None
      end
  end.
(* 868-875: done, start, the enumerator *)
Fixpoint advance (fuel : nat) (p : tvpe) (next_pos start : Z) : option (bool * Z * tvpe) :=
  match fuel with
  | O => None
  | S f => if e_pos p <=? next_pos then let n := tvpe_next p in if fst n then advance f (snd n) next_pos (e_pos p) else Some (true, e_pos p, snd n)
           else Some (false, start, p)
  end.
(* 878-885: min and max over the array of the queue, the last one first *)
Fixpoint bounds (l : list (option tvpe)) (mn mx : Z) : option (Z * Z) :=
  match l with
  | [] => Some (mn, mx)
  | x :: r => do t <- x; let p := e_pos t + e_off t in bounds r (if p <? mn then p else mn) (if mx <? p then p else mx)
  end.
Definition heap_cells (q : pq tvpe) : list (option tvpe) := rev (firstn (pq_size q) (tl (pq_heap q))).
(* 863-892 *)
Fixpoint sloppy_go (fuel : nat) (slop last : Z) (q : pq tvpe) : option (list (Z * Z)) :=
  match fuel with
  | O => None
  | S f =>
      do x <- pq_pop tvpe tvpe_lt q;
      do p <- fst x;
      do t <- (do y <- pq_top tvpe (snd x); y);
      do w <- advance (S (S (length (e_left p)))) p (e_pos t) (e_pos p);
      let '(done, start, p') := w in
      do here <- (if last - start <=? slop then do b <- bounds (heap_cells (snd x)) (start + e_off p') (start + e_off p'); Some [b] else Some []);
      do q' <- pq_push tvpe tvpe_lt (snd x) p';
      do more <- (if done then Some [] else sloppy_go f slop (if last <? e_pos p' then e_pos p' else last) q');
      Some (here ++ more)
  end.
(* 896-917: the first positions that are not before those of the preceding part; None: done *)
Fixpoint exact_fill (v : tv) (poss : list (Z * list str)) (prev : option Z) : option (option (list tvpe)) :=
  match poss with
  | [] => Some (Some [])
  | (off, terms) :: r =>
      do x <- get_tvpe v terms off;
      match x with
      | Some e =>
          let n := match prev with None => tvpe_next e | Some d => tvpe_skip_to e d end in
          if fst n then do y <- exact_fill v r (Some (e_pos (snd n))); Some (option_map (cons (snd n)) y)
          else match prev with None => None | Some _ => Some None end
      | None => Some None
      end
  end.
(* 919-941: both loops; idx is first_index, li the index of last *)
Fixpoint exact_go (fuel : nat) (idx li : nat) (l : list tvpe) : option (list (Z * Z)) :=
  match fuel with
  | O => None
  | S f =>
      do first <- nth_error l idx;
      do last <- nth_error l li;
      if e_pos first <? e_pos last then
        let n := tvpe_skip_to first (e_pos last) in
        if fst n then exact_go f ((idx + 1) mod length l)%nat idx (upd l idx (snd n)) else Some []
      else
        do a <- nth_error l 0;
        do b <- nth_error l (length l - 1);
        let n := tvpe_next last in
        do more <- (if fst n then exact_go f idx li (upd l li (snd n)) else Some []);
        Some ((e_pos a + e_off a, e_pos b + e_off b) :: more)
  end.
Section PHRASE.
  Variable psort : list (Z * list str) -> list (Z * list str).   (* qsort with phrase_pos_cmp, 17-29 *)
  (* 834-946 phq_get_matchv_i *)
  Definition phq_matchv (fuel : nat) (v : tv) (field slop : Z) (poss : list (Z * list str)) : option (list (Z * Z)) :=
    if tv_field v =? field then
      if 0 <? slop then
        do x <- sloppy_fill v poss (pq_new tvpe (length poss)) 0;
        match x with Some (q, last) => sloppy_go fuel slop last q | None => Some [] end
      else
        do x <- exact_fill v (psort poss) None;
        match x with Some l => exact_go fuel 0 (length l - 1) l | None => Some [] end
    else Some [].
End PHRASE.

(* ---------- queries as get_matchv_i sees them; a clause of a BooleanQuery comes with whether it is a BC_MUST_NOT *)
Inductive hq :=
| HTerm (field : Z) (term : str)
| HMulti (field : Z) (heap : list str)
| HRange (field : Z) (g : Range_Model.range)
| HTyped (field : Z) (g : Range_Model.range)
| HPhrase (field slop : Z) (poss : list (Z * list str))
| HBool (clauses : list (bool * hq))
| HOther.   (* the others: q_get_matchv_i of search.c 435-440 *)
Section TREE.
  Variables (num : Type) (nle nlt : num -> num -> bool) (zero : num) (sscanf : str -> Range_Model.scanres num).
  Variable psort : list (Z * list str) -> list (Z * list str).
  (* q_boolean.c 1326-1337 bq_get_matchv_i: the last clause first *)
  Fixpoint collect (fuel : nat) (v : tv) (q : hq) : option (list (Z * Z)) :=
    match q with
    | HTerm field t => tq_matchv v field t
    | HMulti field heap => multi_matchv v field heap
    | HRange field g => rq_matchv v field g
    | HTyped field g => trq_matchv num nle nlt zero sscanf v field g
    | HPhrase field slop poss => phq_matchv psort fuel v field slop poss
    | HBool clauses =>
        (fix go (l : list (bool * hq)) : option (list (Z * Z)) :=
           match l with
           | [] => Some []
           | (must_not, c) :: r => do later <- go r; do here <- (if must_not then Some [] else collect fuel v c); Some (later ++ here)
           end) clauses
    | HOther => Some []
    end.
End TREE.
