(* Model of the choice and the printing of excerpts, c/src/search.c 645-765 and 829-961 (searcher_highlight after the matches of the query have been collected).
   Matches, compaction, offsets of matches, the field and the copying of its bytes into a buffer are those of Match_Model, the queue is that of PQueue_Model.
   None: undefined behaviour (an access out of bounds, a signed overflow of excerpt_len * num_excerpts) or a raised exception.
   Scores are integers: every match adds 1.0, so that the doubles are exact.  Both calls of qsort are parameters.
   Simplified: the other sums of ints do not overflow; memory is not freed. *)
From Verif Require Import Util Match_Model PQueue_Model.
Open Scope Z_scope.

(* 645-654; start and end are indexes of matches, the others positions and offsets of the text *)
Record exc := mkExc { x_start : Z; x_end : Z; x_spos : Z; x_epos : Z; x_soff : Z; x_eoff : Z; x_score : Z }.
(* 667-670 excerpt_start_cmp *)
Definition start_cmp (a b : exc) : Z := x_start a - x_start b.
(* 672-675 excerpt_lt: the highest score is at the top *)
Definition exc_lt (a b : exc) : bool := x_score b <? x_score a.
Definition znth {A} (l : list A) (i : Z) : option A := if i <? 0 then None else nth_error l (Z.to_nat i).
(* the indexes from start to end *)
Definition span (e : exc) : list nat := seq (Z.to_nat (x_start e)) (Z.to_nat (x_end e - x_start e + 1)).

Section CAND.
  Variables (len : Z) (os : list (Z * Z)) (sc : list Z).
  (* 884-888: the end of the window moves on *)
  Fixpoint widen (fuel : nat) (limit : Z) (e_end : nat) (run : Z) : option (nat * Z) :=
    match fuel with
    | O => None
    | S k => match nth_error os e_end with
             | Some m => if snd m <=? limit then do s <- nth_error sc e_end; widen k limit (S e_end) (run + s) else Some (e_end, run)
             | None => Some (e_end, run)
             end
    end.
  (* 878-893: one candidate for every match, with the running score *)
  Fixpoint cands (starts : list nat) (e_end : nat) (run : Z) : option (list exc) :=
    match starts with
    | [] => Some []
    | i :: t =>
        do m <- nth_error os i;
        do g <- widen (S (length os)) (fst m + len) (if (e_end <? i)%nat then i else e_end) (if (e_end <? i)%nat then 0 else run);
        do s <- nth_error sc i;
        do r <- cands t (fst g) (snd g - s);
        Some (mkExc (Z.of_nat i) (Z.of_nat (fst g) - 1) 0 0 0 0 (snd g) :: r)
    end.
End CAND.
(* 889-890 *)
Fixpoint push_cands (q : pq exc) (l : list exc) : option (pq exc) :=
  match l with [] => Some q | e :: t => do q1 <- pq_push exc exc_lt q e; push_cands q1 t end.
(* 686-695 excerpt_recalc_score *)
Definition recalc (sc : list Z) (e : exc) : option exc :=
  do s <- fold_left (fun a j => do x <- a; do y <- nth_error sc j; Some (x + y)) (span e) (Some 0);
  Some (mkExc (x_start e) (x_end e) (x_spos e) (x_epos e) (x_soff e) (x_eoff e) s).
(* 901-903 *)
Definition zero (sc : list Z) (e : exc) : option (list Z) :=
  fold_left (fun a j => do l <- a; do _ <- nth_error l j; Some (upd l j 0)) (span e) (Some sc).
(* 904-909; a pointer to an excerpt is told apart by its first match *)
Fixpoint settle (fuel : nat) (q : pq exc) (sc : list Z) (e : option Z) : option (pq exc) :=
  match fuel with
  | O => None
  | S f =>
      do t <- pq_top exc q;
      match t, e with
      | None, None => Some q
      | None, Some _ => None
      | Some x, _ =>
          if match e with Some s => s =? x_start x | None => false end then Some q
          else do y <- recalc sc x; do q1 <- pq_replace_top exc exc_lt q y; settle f q1 sc (Some (x_start x))
      end
  end.
(* 895-911, n excerpts still to be chosen *)
Fixpoint choose (n : nat) (q : pq exc) (sc : list Z) : option (list exc) :=
  match n with
  | O => Some []
  | S k =>
      if (0 <? pq_size q)%nat then
        do p <- pq_pop exc exc_lt q;
        do e <- fst p;
        if (k =? 0)%nat then Some [e]
        else do sc1 <- zero sc e; do q1 <- settle (S (S (pq_size (snd p)))) (snd p) sc1 None; do r <- choose k q1 sc1; Some (e :: r)
      else Some []
  end.
(* 914-920 *)
Definition place (offs : list (Z * Z)) (ms : list mr) (e : exc) : option exc :=
  do a <- znth ms (x_start e);
  do b <- znth ms (x_end e);
  do o <- znth offs (m_start a);
  do p <- znth offs (m_end b);
  Some (mkExc (x_start e) (x_end e) (m_start a) (m_end b) (fst o) (snd p) (x_score e)).
Fixpoint place_all (offs : list (Z * Z)) (ms : list mr) (l : list exc) : option (list exc) :=
  match l with [] => Some [] | e :: t => do a <- place offs ms e; do r <- place_all offs ms t; Some (a :: r) end.
(* 922-932: the excerpts which grow at the start *)
Definition filler : exc := mkExc 0 (-1) 0 0 0 0 0.
(* 939-948: k is j - i + 1 *)
Fixpoint merge1 (len : Z) (ei : exc) (k : nat) (rest : list exc) (merged : nat) : exc * nat :=
  match rest with
  | [] => (ei, merged)
  | ej :: t =>
      if x_eoff ej - x_soff ei <? Z.of_nat k * len then merge1 len (mkExc (x_start ei) (x_end ej) (x_spos ei) (x_epos ej) (x_soff ei) (x_eoff ej) (x_score ei)) (S k) t k
      else merge1 len ei (S k) t merged
  end.
(* 704-712: skipped offsets are those of the position before *)
Fixpoint fill_from (prev : Z * Z) (l : list (Z * Z)) : list (Z * Z) :=
  match l with
  | [] => []
  | o :: t => let o1 := ((if fst o =? 0 then fst prev else fst o), (if snd o =? 0 then snd prev else snd o)) in o1 :: fill_from o1 t
  end.
Definition fill (l : list (Z * Z)) : list (Z * Z) := match l with [] => [] | o :: t => o :: fill_from o t end.
(* 716-721 and 722-727 *)
Definition step_left (len : Z) (offs : list (Z * Z)) (e : exc) : option (bool * exc) :=
  if 0 <? x_spos e then
    do o <- znth offs (x_spos e - 1);
    Some (if x_eoff e - fst o <? len then (true, mkExc (x_start e) (x_end e) (x_spos e - 1) (x_epos e) (fst o) (x_eoff e) (x_score e)) else (false, e))
  else Some (false, e).
Definition step_right (len : Z) (offs : list (Z * Z)) (e : exc) : option (bool * exc) :=
  if x_epos e <? Z.of_nat (length offs) - 1 then
    do o <- znth offs (x_epos e + 1);
    Some (if snd o - x_soff e <? len then (true, mkExc (x_start e) (x_end e) (x_spos e) (x_epos e + 1) (x_soff e) (snd o) (x_score e)) else (false, e))
  else Some (false, e).
(* 714-728 *)
Fixpoint expand (fuel : nat) (len : Z) (offs : list (Z * Z)) (e : exc) : option exc :=
  match fuel with
  | O => None
  | S f =>
      do a <- step_left len offs e;
      do b <- step_right len offs (snd a);
      if fst a || fst b then expand f len offs (snd b) else Some (snd b)
  end.
Fixpoint reads {A} (l : list A) (is : list nat) : option (list A) :=
  match is with [] => Some [] | i :: t => do a <- nth_error l i; do r <- reads l t; Some (a :: r) end.
(* 732-785 excerpt_get_str *)
Definition get_str (d : ldf) (os : list (Z * Z)) (pre post ell : list Z) (e : exc) : option (list Z * ldf) :=
  let n := fun l : list Z => Z.of_nat (length l) in
  let capa := 10 + x_eoff e - x_soff e + (x_end e - x_start e + 1) * (n pre + n post) + 2 * n ell in
  do o1 <- put capa [] (if 0 <? x_soff e then ell else []);
  do ms <- reads os (span e);
  do x <- h_loop capa d pre post ms o1 (x_soff e);
  let '(o2, last, d1) := x in
  let eoff := if f_len d1 - x_eoff e <=? n ell then f_len d1 else x_eoff e in
  do y <- copy capa d1 o2 last (eoff - last);
  do o3 <- put capa (fst y) (if eoff <? f_len (snd y) then ell else []);
  do _ <- put capa o3 [0];
  Some (o3, snd y).
(* 936-957 *)
Fixpoint emit (fuel : nat) (len : Z) (d : ldf) (offs os : list (Z * Z)) (pre post ell : list Z) (es : list exc) : option (list (list Z)) :=
  match es with
  | [] => Some []
  | ei :: rest =>
      match fuel with
      | O => None
      | S f =>
          let (e1, merged) := merge1 len ei 2 rest 1 in
          do e2 <- expand (S (length offs + length offs)) (Z.of_nat merged * len) (fill offs) e1;
          do s <- get_str d os pre post ell e2;
          do r <- emit f len (snd s) (fill offs) os pre post ell (skipn (merged - 1) rest);
          Some (fst s :: r)
      end
  end.
Section HIGHLIGHT.
  Variable qsort : (mr -> mr -> Z) -> list mr -> list mr.
  Variable esort : (exc -> exc -> Z) -> list exc -> list exc.
  (* 862-957 *)
  Definition excerpts (v : mvec) (d : ldf) (offs : list (Z * Z)) (len : Z) (num : nat) (pre post ell : list Z) : option (list (list Z)) :=
    do w <- compact qsort true v;
    do ms <- v_list w;
    do os <- set_all offs ms;
    let sc := map m_score ms in
    do cs <- cands len os sc (seq 0 (length ms)) 0 0;
    do q <- push_cands (pq_new exc (length ms)) cs;
    do ch <- choose num q sc;
    do es <- place_all offs ms (esort start_cmp ch);
    emit num len d offs os pre post ell (repeat filler (num - length es) ++ es).
  (* 853-957; the inner None is NULL *)
  Definition highlight (v : mvec) (d : ldf) (offs : list (Z * Z)) (len num : Z) (pre post ell : list Z) : option (option (list (list Z))) :=
    if (len * num <? - 2 ^ 31) || (2 ^ 31 <=? len * num) then None
    else if f_len d <? len * num then do s <- highlight_field qsort v d offs pre post; Some (Some [s])
    else if (0 <? v_size v)%nat then if num <? 0 then None else do r <- excerpts v d offs len (Z.to_nat num) pre post ell; Some (Some r)
    else Some None.
End HIGHLIGHT.
