(* Model of the phrase scorers, c/src/q_phrase.c 40-545, over the position enumerators of the terms.
   A position enumerator is the list of documents of the term (or of the alternatives of a position) with their positions; next_position hands
   out the positions of the current document one after the other.  The scorer's positions are integers without overflow (int in the code).
   qsort is a parameter: the C standard fixes the result only up to the order of equal elements.
   None is undefined behaviour (assert(tpe), next_position after the last position, pq_top of an empty queue) or not enough fuel. *)
From Verif Require Import Util PQueue_Model.
Open Scope Z_scope.

(* 40-47 PhPos, with what its TermDocEnum still knows *)
Record pp := mkPp { p_open : bool; p_all : list Z; p_left : list Z; p_rest : list (Z * list Z); p_off : Z; p_cnt : Z; p_doc : Z; p_pos : Z }.
Definition INT_MAX : Z := 2147483647.
(* 52-65 pp_next and 67-80 pp_skip_to: the enumerator moves to the head of l *)
Definition pp_enter (p : pp) (l : list (Z * list Z)) : bool * pp :=
  match l with
  | [] => (false, mkPp false (p_all p) (p_left p) [] (p_off p) (p_cnt p) INT_MAX (p_pos p))
  | (d, ps) :: r => (true, mkPp true ps ps r (p_off p) (p_cnt p) d 0)
  end.
Fixpoint from_doc (d : Z) (l : list (Z * list Z)) : list (Z * list Z) := match l with [] => [] | x :: t => if fst x <? d then from_doc d t else l end.
Definition pp_move (op : option Z) (p : pp) : option (bool * pp) :=
  if p_open p then Some (pp_enter p (match op with None => p_rest p | Some d => from_doc d (p_rest p) end)) else None.
(* 82-93 pp_next_position *)
Definition pp_next_position (p : pp) : option (bool * pp) :=
  let c := p_cnt p - 1 in
  if 0 <=? c then
    match p_left p with
    | [] => None
    | x :: t => if p_open p then Some (true, mkPp (p_open p) (p_all p) t (p_rest p) (p_off p) c (p_doc p) (x - p_off p)) else None
    end
  else Some (false, mkPp (p_open p) (p_all p) (p_left p) (p_rest p) (p_off p) c (p_doc p) (p_pos p)).
(* 95-100 pp_first_position: freq is the number of positions of the document *)
Definition pp_first_position (p : pp) : option (bool * pp) :=
  if p_open p then pp_next_position (mkPp (p_open p) (p_all p) (p_left p) (p_rest p) (p_off p) (Z.of_nat (length (p_all p))) (p_doc p) (p_pos p)) else None.
(* 109-125 *)
Definition pp_cmp (a b : pp) : Z := if p_doc a - p_doc b =? 0 then p_pos a - p_pos b else p_doc a - p_doc b.
Definition pp_pos_cmp (a b : pp) : Z := p_pos a - p_pos b.
(* 144-153 pp_new *)
Definition pp_new (offset : Z) (postings : list (Z * list Z)) : pp := mkPp true [] [] postings offset (-1) (-1) (-1).
Definition next_num (i n : nat) : nat := ((i + 1) mod n)%nat.
Definition prev_num (i n : nat) : nat := ((i + n - 1) mod n)%nat.

(* 127-135 pp_less_than by the positions and offsets *)
Definition key_less (ks : list (Z * Z)) (i j : nat) : bool :=
  let a := nth i ks (0, 0) in let b := nth j ks (0, 0) in if fst a =? fst b then snd a <? snd b else fst a <? fst b.
Section SORT.
  Variable qsort : (pp -> pp -> Z) -> list pp -> list pp.
  Fixpoint first_all (l : list pp) : option (list pp) := match l with [] => Some [] | p :: t => do r <- pp_first_position p; do t' <- first_all t; Some (snd r :: t') end.
  (* the innermost loop of ephsc_phrase_freq: do ... while (first->position < last->position) *)
  Fixpoint catch_up (fuel : nat) (p : pp) (target : Z) : option (bool * pp) :=
    match fuel with
    | O => None
    | S f => do r <- pp_next_position p; if fst r then (if p_pos (snd r) <? target then catch_up f (snd r) target else Some r) else Some r
    end.
  (* 362-391 ephsc_phrase_freq: the loop over positions; the result is freq, pp_first_idx and the positions *)
  Fixpoint scan (fuel : nat) (freq : Z) (idx li : nat) (l : list pp) : option (Z * nat * list pp) :=
    match fuel with
    | O => None
    | S f =>
        do first <- nth_error l idx;
        do last <- nth_error l li;
        if p_pos first <? p_pos last then
          do r <- catch_up f first (p_pos last);
          let l' := upd l idx (snd r) in
          if fst r then scan f freq (next_num idx (length l)) idx l' else Some (freq, idx, l')
        else
          do r <- pp_next_position last;
          let l' := upd l li (snd r) in
          if fst r then scan f (freq + 1) idx li l' else Some (freq + 1, idx, l')
    end.
  Definition ephsc_phrase_freq (fuel : nat) (idx : nat) (l : list pp) : option (Z * nat * list pp) :=
    do l1 <- first_all l;
    let l2 := qsort pp_pos_cmp l1 in
    scan fuel 0 0 (length l2 - 1) l2.

  (* 432-454 sphsc_check_repeats; positions is an array of pointers, one of which may be pp itself: pp is given by its index k *)
  Fixpoint check_repeats (fuel : nat) (k j p_cnt : nat) (l : list pp) : option (bool * list pp) :=
    match fuel with
    | O => None
    | S f =>
        if (j <? p_cnt)%nat then
          do ppj <- nth_error l j;
          do p <- nth_error l k;
          if p_off ppj =? p_off p then check_repeats f k (S j) p_cnt l
          else if p_pos ppj + p_off ppj =? p_pos p + p_off p then
            do r <- pp_next_position p;
            let l' := upd l k (snd r) in
            if fst r then check_repeats f k 0 p_cnt l' else Some (false, l')
          else check_repeats f k (S j) p_cnt l
        else Some (true, l)
    end.
  (* 127-135 pp_less_than; the queue holds indices into the array (an index outside it, which never occurs, has key (0, 0)) *)
  Definition pp_less (l : list pp) : nat -> nat -> bool := key_less (map (fun p => (p_pos p, p_off p)) l).
  (* 456-492: the first loop of sphsc_phrase_freq; Some None: goto return_freq *)
  Fixpoint sloppy_first (fuel : nat) (chk : bool) (i n : nat) (l : list pp) (q : pq nat) (last_pos : Z) : option (option (pq nat * Z) * list pp) :=
    match n with
    | O => Some (Some (q, last_pos), l)
    | S m =>
        do p <- nth_error l i;
        do r <- pp_first_position p;
        if fst r then
          let l1 := upd l i (snd r) in
          do c <- (if chk && (0 <? i)%nat then check_repeats fuel i 0 (i - 1) l1 else Some (true, l1));
          if fst c then
            do p2 <- nth_error (snd c) i;
            do q' <- pq_push nat (pp_less (snd c)) q i;
            sloppy_first fuel chk (S i) m (snd c) q' (if last_pos <? p_pos p2 then p_pos p2 else last_pos)
          else Some (None, snd c)
        else None
    end.
  (* 497-506: advance pp to the smallest window; the result is done, start and the positions *)
  Fixpoint window (fuel : nat) (chk : bool) (k : nat) (next_pos pos start : Z) (l : list pp) : option (bool * Z * list pp) :=
    match fuel with
    | O => None
    | S f =>
        if pos <=? next_pos then
          do p <- nth_error l k;
          do r <- pp_next_position p;
          let l1 := upd l k (snd r) in
          if fst r then
            do c <- (if chk then check_repeats f k 0 (length l) l1 else Some (true, l1));
            if fst c then do p2 <- nth_error (snd c) k; window f chk k next_pos (p_pos p2) pos (snd c) else Some (true, pos, snd c)
          else Some (true, pos, l1)
        else Some (false, start, l)
    end.
  (* 493-520: the lengths of the matches, which sim_sloppy_freq turns into positive numbers that are added up *)
  Fixpoint sloppy_loop (fuel : nat) (chk : bool) (slop last_pos : Z) (lens : list Z) (l : list pp) (q : pq nat) : option (list Z * list pp) :=
    match fuel with
    | O => None
    | S f =>
        do x <- pq_pop nat (pp_less l) q;
        do k <- fst x;
        do p <- nth_error l k;
        do t <- (do y <- pq_top nat (snd x); y);
        do top <- nth_error l t;
        do w <- window f chk k (p_pos top) (p_pos p) (p_pos p) l;
        let '(done, start, l') := w in
        let lens' := if last_pos - start <=? slop then lens ++ [last_pos - start] else lens in
        do p2 <- nth_error l' k;
        do q' <- pq_push nat (pp_less l') (snd x) k;
        if done then Some (lens', l') else sloppy_loop f chk slop (if last_pos <? p_pos p2 then p_pos p2 else last_pos) lens' l' q'
    end.
  Definition sphsc_matches (fuel : nat) (chk : bool) (slop : Z) (l : list pp) : option (list Z * list pp) :=
    do r <- sloppy_first fuel chk 0 (length l) l (pq_new nat (length l)) 0;
    match fst r with None => Some ([], snd r) | Some (q, last_pos) => sloppy_loop fuel chk slop last_pos [] (snd r) q end.

  (* ---------- 157-180 PhraseScorer with the way it computes the frequency *)
  Record phsc := mkPh { h_doc : Z; h_freq : Z; h_pos : list pp; h_idx : nat; h_first : bool; h_more : bool }.
  Section FREQ.
    (* phsc->phrase_freq: frequency (0: no match), pp_first_idx, positions *)
    Variable phrase_freq : nat -> nat -> list pp -> option (Z * nat * list pp).
    (* 182-195 phsc_init, 273-288 phsc_skip_to: the positions are moved from the last to the first *)
    Fixpoint move_all (op : option Z) (l : list pp) : option (bool * list pp) :=
      match l with
      | [] => Some (true, [])
      | p :: t => do r <- move_all op t; if fst r then do x <- pp_move op p; Some (fst x, snd x :: snd r) else Some (false, p :: snd r)
      end.
    (* 197-240 phsc_do_next *)
    Fixpoint do_next (fuel : nat) (freq doc : Z) (h_i : nat) (more : bool) (idx li : nat) (l : list pp) : option (bool * phsc) :=
      match fuel with
      | O => None
      | S f =>
          if more then
            do first <- nth_error l idx;
            do last <- nth_error l li;
            if p_doc first <? p_doc last then
              do r <- pp_move (Some (p_doc last)) first;
              do_next f freq doc h_i (fst r) (next_num idx (length l)) idx (upd l idx (snd r))
            else
              do x <- phrase_freq f idx l;
              let '(fr, idx', l') := x in
              if fr =? 0 then
                let li' := prev_num idx' (length l) in
                do p <- nth_error l' li';
                do r <- pp_move None p;
                do_next f fr doc idx' (fst r) idx' li' (upd l' li' (snd r))
              else Some (true, mkPh (p_doc first) fr l' idx' false true)
          else Some (false, mkPh doc freq l h_i false false)
      end.
    Definition start (fuel : nat) (freq doc : Z) (more : bool) (idx : nat) (l : list pp) : option (bool * phsc) := do_next fuel freq doc idx more idx (prev_num idx (length l)) l.
    (* 252-266 phsc_next, 268-288 phsc_skip_to *)
    Definition phsc_run (fuel : nat) (op : option Z) (s : phsc) : option (bool * phsc) :=
      match op with
      | None =>
          if h_first s then
            do r <- move_all None (h_pos s);
            start fuel (h_freq s) (h_doc s) (fst r) (if fst r then 0%nat else h_idx s) (if fst r then qsort pp_cmp (snd r) else snd r)
          else if h_more s then
            let i := prev_num (h_idx s) (length (h_pos s)) in
            do p <- nth_error (h_pos s) i;
            do r <- pp_move None p;
            start fuel (h_freq s) (h_doc s) (fst r) (h_idx s) (upd (h_pos s) i (snd r))
          else start fuel (h_freq s) (h_doc s) false (h_idx s) (h_pos s)
      | Some d =>
          do r <- move_all (Some d) (h_pos s);
          do x <- start fuel (h_freq s) (h_doc s) (fst r) (if fst r then 0%nat else h_idx s) (if fst r then qsort pp_cmp (snd r) else snd r);
          Some (fst x, mkPh (h_doc (snd x)) (h_freq (snd x)) (h_pos (snd x)) (h_idx (snd x)) (h_first s) (h_more (snd x)))
      end.
  End FREQ.
  (* a phrase: the offsets and the postings of its positions; 313-358 phsc_new *)
  Definition phsc_new (ph : list (Z * list (Z * list Z))) : phsc := mkPh 0 0 (map (fun x => pp_new (fst x) (snd x)) ph) 0 true true.
  Definition exact_run (fuel : nat) (op : option Z) (s : phsc) : option (bool * phsc) := phsc_run ephsc_phrase_freq fuel op s.
  Definition sloppy_freq (chk : bool) (slop : Z) (fuel idx : nat) (l : list pp) : option (Z * nat * list pp) :=
    do r <- sphsc_matches fuel chk slop l; Some (Z.of_nat (length (fst r)), idx, snd r).
  Definition sloppy_run (chk : bool) (slop : Z) (fuel : nat) (op : option Z) (s : phsc) : option (bool * phsc) := phsc_run (sloppy_freq chk slop) fuel op s.
End SORT.
