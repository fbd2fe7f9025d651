(* Model of the position enumerators of a phrase on a reader of one or several segments, and of the phrase scorers on them: term_positions with
   seek (Post_Model and Mtde_Model with positions), MultipleTermDocPosEnum (c/src/index.c 3446-3620) for a position with several terms, and
   c/src/q_phrase.c 40-534 and phw_scorer 549-588.  Phrase_Model has the scorer on lists of postings; here every step is one of an enumerator.
   Not modelled: scores and norms, the capacity of pos_queue.  None: undefined behaviour or not enough fuel. *)
From Verif Require Import Util Strcmp Dict_Model Post_Model PQueue_Model Multi_Model Mte_Model Mtde_Model Expand_Model Range_Model Tsc_Model.
From Verif Require Phrase_Model.
Open Scope Z_scope.

(* tpe->next with doc_num and freq: stpe_next, mtde_next *)
Definition tp_next (r : prdr) (del : Z -> bool) (de : penum) : option (option (Z * Z) * penum) :=
  match r, de with
  | POne g, DOne d => do x <- tde_next true del d; Some (if fst x then Some (p_doc (snd x), p_freq (snd x)) else None, DOne (snd x))
  | PMany mp gs starts, DMany m => do x <- mtde_next true gs starts (S (S (length gs))) del m; Some (fst x, DMany (snd x))
  | _, _ => None
  end.
(* tpe->skip_to: stpe_skip_to, mtde_skip_to *)
Definition tp_skip (r : prdr) (del : Z -> bool) (target : Z) (de : penum) : option (option (Z * Z) * penum) :=
  match r, de with
  | POne g, DOne d => do x <- tde_skip_to true (g_frq (fst g)) (g_prx (fst g)) (s_skip (snd g)) del d target;
                      Some (if fst x then Some (p_doc (snd x), p_freq (snd x)) else None, DOne (snd x))
  | PMany mp gs starts, DMany m => do x <- mtde_skip true gs starts (S (S (length gs))) del target m; Some (fst x, DMany (snd x))
  | _, _ => None
  end.
(* tpe->next_position: stpe_next_position, mtpe_next_position *)
Definition tp_pos (r : prdr) (de : penum) : option (Z * penum) :=
  match r, de with
  | POne g, DOne d => do x <- next_position d; Some (fst x, DOne (snd x))
  | PMany mp gs starts, DMany m => do x <- mtpe_next_position m; Some (fst x, DMany (snd x))
  | _, _ => None
  end.
(* ir->term_positions and tpe->seek; t: the TermInfosReader of the only segment *)
Definition tp_open (r : prdr) (t : tir) (f : Z) (term : list Z) : option (penum * tir) :=
  do de <- term_docs r;
  match r, de with
  | POne g, DOne d => do x <- tir_get_ti_field (g_dict (fst g)) (snd g) t O f term; Some (DOne (tde_seek true (g_frq (fst g)) (g_prx (fst g)) (s_skip (snd g)) d (fst x)), snd x)
  | PMany mp gs starts, DMany m => do m' <- mtde_seek true gs starts mp m f term; Some (DMany m', t)
  | _, _ => None
  end.

(* ---------- 3446-3620 MultipleTermDocPosEnum: the enumerators with the freq they stand at, the queue with their doc_num, what is left of pos_queue *)
Record mtp := mkMtp { a_subs : list (penum * Z); a_pq : pq (Z * nat); a_queue : list Z }.
(* qsort(pos_queue, freq, sizeof(int), &icmp_risky): integers have one sorted order *)
Fixpoint zins (a : Z) (l : list Z) : list Z := match l with [] => [a] | b :: t => if a <=? b then a :: l else b :: zins a t end.
Definition zsort (l : list Z) : list Z := fold_right zins [] l.
Section ALTS.
  Variables (r : prdr) (del : Z -> bool).
  (* 3512-3514 *)
  Fixpoint take_pos (k : nat) (e : penum) : option (list Z * penum) :=
    match k with O => Some ([], e) | S k' => do x <- tp_pos r e; do y <- take_pos k' (snd x); Some (fst x :: fst y, snd y) end.
  (* 3503-3524; the condition of the loop holds when it is entered; fuel: every enumerator is at the document once *)
  Fixpoint gather (fuel : nat) (doc : Z) (subs : list (penum * Z)) (q : pq (Z * nat)) (acc : list Z) : option (list (penum * Z) * pq (Z * nat) * list Z) :=
    match fuel with
    | O => None
    | S k =>
        do top <- pq_top _ q;
        match top with
        | None => Some (subs, q, acc)
        | Some (d, i) =>
            if d =? doc then
              do s <- nth_error subs i;
              do x <- take_pos (Z.to_nat (snd s)) (fst s);
              do y <- tp_next r del (snd x);
              do q' <- match fst y with Some c => pq_replace_top _ tdew_lt q (fst c, i) | None => do z <- pq_pop _ tdew_lt q; Some (snd z) end;
              gather k doc (upd subs i (snd y, match fst y with Some c => snd c | None => snd s end)) q' (acc ++ fst x)
            else Some (subs, q, acc)
        end
    end.
  (* 3488-3533 mtdpe_next *)
  Definition mtdpe_next (a : mtp) : option (option (Z * Z) * mtp) :=
    do top <- pq_top _ (a_pq a);
    match top with
    | None => Some (None, a)
    | Some (d, _) => do x <- gather (S (length (a_subs a))) d (a_subs a) (a_pq a) [];
                     Some (Some (d, Z.of_nat (length (snd x))), mkMtp (fst (fst x)) (snd (fst x)) (zsort (snd x)))
    end.
  (* 3545-3554 *)
  Fixpoint alts_skip (fuel : nat) (target : Z) (subs : list (penum * Z)) (q : pq (Z * nat)) : option (list (penum * Z) * pq (Z * nat)) :=
    match fuel with
    | O => None
    | S k =>
        do top <- pq_top _ q;
        match top with
        | None => Some (subs, q)
        | Some (d, i) =>
            if d <? target then
              do s <- nth_error subs i;
              do y <- tp_skip r del target (fst s);
              do q' <- match fst y with Some c => pq_replace_top _ tdew_lt q (fst c, i) | None => do z <- pq_pop _ tdew_lt q; Some (snd z) end;
              alts_skip k target (upd subs i (snd y, match fst y with Some c => snd c | None => snd s end)) q'
            else Some (subs, q)
        end
    end.
  (* 3540-3556 mtdpe_skip_to *)
  Definition mtdpe_skip (target : Z) (a : mtp) : option (option (Z * Z) * mtp) :=
    do x <- alts_skip (S (length (a_subs a))) target (a_subs a) (a_pq a);
    mtdpe_next (mkMtp (fst x) (snd x) (a_queue a)).
  (* 3568-3571 *)
  Definition mtdpe_next_position (a : mtp) : option (Z * mtp) :=
    match a_queue a with [] => None | x :: t => Some (x, mkMtp (a_subs a) (a_pq a) t) end.
  (* 3581-3604 mtdpe_new; enumerators without a document are closed at once *)
  Fixpoint alts_open (t : tir) (f : Z) (terms : list (list Z)) (subs : list (penum * Z)) (q : pq (Z * nat)) : option (list (penum * Z) * pq (Z * nat) * tir) :=
    match terms with
    | [] => Some (subs, q, t)
    | x :: terms' =>
        do e <- tp_open r t f x;
        do y <- tp_next r del (fst e);
        match fst y with
        | Some c => do q' <- pq_push _ tdew_lt q (fst c, length subs); alts_open (snd e) f terms' (subs ++ [(snd y, snd c)]) q'
        | None => alts_open (snd e) f terms' subs q
        end
    end.
  Definition mtdpe_new (t : tir) (f : Z) (terms : list (list Z)) : option (mtp * tir) :=
    do x <- alts_open t f terms [] (pq_new _ (length terms)); Some (mkMtp (fst (fst x)) (snd (fst x)) [], snd x).

  (* ---------- the enumerator of a position *)
  Inductive tpe := TOne (e : penum) | TAlts (a : mtp).
  Definition tpe_next (e : tpe) : option (option (Z * Z) * tpe) :=
    match e with TOne p => do x <- tp_next r del p; Some (fst x, TOne (snd x)) | TAlts a => do x <- mtdpe_next a; Some (fst x, TAlts (snd x)) end.
  Definition tpe_skip (d : Z) (e : tpe) : option (option (Z * Z) * tpe) :=
    match e with TOne p => do x <- tp_skip r del d p; Some (fst x, TOne (snd x)) | TAlts a => do x <- mtdpe_skip d a; Some (fst x, TAlts (snd x)) end.
  Definition tpe_pos (e : tpe) : option (Z * tpe) :=
    match e with TOne p => do x <- tp_pos r p; Some (fst x, TOne (snd x)) | TAlts a => do x <- mtdpe_next_position a; Some (fst x, TAlts (snd x)) end.
  (* q_phrase.c 563-574 *)
  Definition tpe_open (t : tir) (f : Z) (terms : list (list Z)) : option (tpe * tir) :=
    match terms with
    | [x] => do e <- tp_open r t f x; Some (TOne (fst e), snd e)
    | _ => do a <- mtdpe_new t f terms; Some (TAlts (fst a), snd a)
    end.
End ALTS.

(* ---------- q_phrase.c 40-47 PhPos; c_freq is the freq of the enumerator where it stands *)
Record cpp := mkCpp { c_tpe : option tpe; c_freq : Z; c_off : Z; c_cnt : Z; c_doc : Z; c_pos : Z }.
Definition C_INT_MAX : Z := 2147483647.
Definition cpp_new (e : tpe) (offset : Z) : cpp := mkCpp (Some e) 0 offset (-1) (-1) (-1).
(* qsort: the order it leaves the elements in depends on how they compare only.  qs: from the table of the comparisons to the numbers of the elements in
   the order they come to *)
Definition sort_by {A} (qs : list (list Z) -> list nat) (cmp : A -> A -> Z) (l : list A) : list A :=
  flat_map (fun i => match nth_error l i with Some x => [x] | None => [] end) (qs (map (fun a => map (cmp a) l) l)).
Section PHRASE.
  Variables (r : prdr) (del : Z -> bool) (qs : list (list Z) -> list nat).
  (* 52-65 pp_next, 67-80 pp_skip_to *)
  Definition cpp_move (op : option Z) (p : cpp) : option (bool * cpp) :=
    do e <- c_tpe p;
    do x <- match op with None => tpe_next r del e | Some d => tpe_skip r del d e end;
    Some (match fst x with
          | Some c => (true, mkCpp (Some (snd x)) (snd c) (c_off p) (c_cnt p) (fst c) 0)
          | None => (false, mkCpp None (c_freq p) (c_off p) (c_cnt p) C_INT_MAX (c_pos p))
          end).
  (* 82-93 pp_next_position *)
  Definition cpp_next_position (p : cpp) : option (bool * cpp) :=
    let c := c_cnt p - 1 in
    if 0 <=? c then
      do e <- c_tpe p; do x <- tpe_pos r e; Some (true, mkCpp (Some (snd x)) (c_freq p) (c_off p) c (c_doc p) (fst x - c_off p))
    else Some (false, mkCpp (c_tpe p) (c_freq p) (c_off p) c (c_doc p) (c_pos p)).
  (* 95-100 pp_first_position *)
  Definition cpp_first_position (p : cpp) : option (bool * cpp) :=
    do e <- c_tpe p; cpp_next_position (mkCpp (Some e) (c_freq p) (c_off p) (c_freq p) (c_doc p) (c_pos p)).
  (* 109-125 *)
  Definition cpp_cmp (a b : cpp) : Z := if c_doc a - c_doc b =? 0 then c_pos a - c_pos b else c_doc a - c_doc b.
  Definition cpp_pos_cmp (a b : cpp) : Z := c_pos a - c_pos b.
  Definition nxt (i n : nat) : nat := ((i + 1) mod n)%nat.
  Definition prv (i n : nat) : nat := ((i + n - 1) mod n)%nat.
  (* 362-391 ephsc_phrase_freq *)
  Fixpoint c_first_all (l : list cpp) : option (list cpp) := match l with [] => Some [] | p :: t => do x <- cpp_first_position p; do t' <- c_first_all t; Some (snd x :: t') end.
  Fixpoint c_catch_up (fuel : nat) (p : cpp) (target : Z) : option (bool * cpp) :=
    match fuel with
    | O => None
    | S f => do x <- cpp_next_position p; if fst x then (if c_pos (snd x) <? target then c_catch_up f (snd x) target else Some x) else Some x
    end.
  Fixpoint c_scan (fuel : nat) (freq : Z) (idx li : nat) (l : list cpp) : option (Z * nat * list cpp) :=
    match fuel with
    | O => None
    | S f =>
        do first <- nth_error l idx;
        do last <- nth_error l li;
        if c_pos first <? c_pos last then
          do x <- c_catch_up f first (c_pos last);
          let l' := upd l idx (snd x) in
          if fst x then c_scan f freq (nxt idx (length l)) idx l' else Some (freq, idx, l')
        else
          do x <- cpp_next_position last;
          let l' := upd l li (snd x) in
          if fst x then c_scan f (freq + 1) idx li l' else Some (freq + 1, idx, l')
    end.
  Definition c_phrase_freq (fuel : nat) (l : list cpp) : option (Z * nat * list cpp) :=
    do l1 <- c_first_all l;
    let l2 := sort_by qs cpp_pos_cmp l1 in
    c_scan fuel 0 0 (length l2 - 1) l2.
  (* 432-454 sphsc_check_repeats *)
  Fixpoint c_check_repeats (fuel : nat) (k j p_cnt : nat) (l : list cpp) : option (bool * list cpp) :=
    match fuel with
    | O => None
    | S f =>
        if (j <? p_cnt)%nat then
          do ppj <- nth_error l j;
          do p <- nth_error l k;
          if c_off ppj =? c_off p then c_check_repeats f k (S j) p_cnt l
          else if c_pos ppj + c_off ppj =? c_pos p + c_off p then
            do x <- cpp_next_position p;
            let l' := upd l k (snd x) in
            if fst x then c_check_repeats f k 0 p_cnt l' else Some (false, l')
          else c_check_repeats f k (S j) p_cnt l
        else Some (true, l)
    end.
  (* 127-135 pp_less_than *)
  Definition cpp_less (l : list cpp) : nat -> nat -> bool := Phrase_Model.key_less (map (fun p => (c_pos p, c_off p)) l).
  (* 456-492 *)
  Fixpoint c_sloppy_first (fuel : nat) (chk : bool) (i n : nat) (l : list cpp) (q : pq nat) (last_pos : Z) : option (option (pq nat * Z) * list cpp) :=
    match n with
    | O => Some (Some (q, last_pos), l)
    | S m =>
        do p <- nth_error l i;
        do x <- cpp_first_position p;
        if fst x then
          let l1 := upd l i (snd x) in
          do c <- (if chk && (0 <? i)%nat then c_check_repeats fuel i 0 (i - 1) l1 else Some (true, l1));
          if fst c then
            do p2 <- nth_error (snd c) i;
            do q' <- pq_push nat (cpp_less (snd c)) q i;
            c_sloppy_first fuel chk (S i) m (snd c) q' (if last_pos <? c_pos p2 then c_pos p2 else last_pos)
          else Some (None, snd c)
        else None
    end.
  (* 497-506 *)
  Fixpoint c_window (fuel : nat) (chk : bool) (k : nat) (next_pos pos start : Z) (l : list cpp) : option (bool * Z * list cpp) :=
    match fuel with
    | O => None
    | S f =>
        if pos <=? next_pos then
          do p <- nth_error l k;
          do x <- cpp_next_position p;
          let l1 := upd l k (snd x) in
          if fst x then
            do c <- (if chk then c_check_repeats f k 0 (length l) l1 else Some (true, l1));
            if fst c then do p2 <- nth_error (snd c) k; c_window f chk k next_pos (c_pos p2) pos (snd c) else Some (true, pos, snd c)
          else Some (true, pos, l1)
        else Some (false, start, l)
    end.
  (* 493-520 *)
  Fixpoint c_sloppy_loop (fuel : nat) (chk : bool) (slop last_pos : Z) (lens : list Z) (l : list cpp) (q : pq nat) : option (list Z * list cpp) :=
    match fuel with
    | O => None
    | S f =>
        do x <- pq_pop nat (cpp_less l) q;
        do k <- fst x;
        do p <- nth_error l k;
        do t <- (do y <- pq_top nat (snd x); y);
        do top <- nth_error l t;
        do w <- c_window f chk k (c_pos top) (c_pos p) (c_pos p) l;
        let '(done, start, l') := w in
        let lens' := if last_pos - start <=? slop then lens ++ [last_pos - start] else lens in
        do p2 <- nth_error l' k;
        do q' <- pq_push nat (cpp_less l') (snd x) k;
        if done then Some (lens', l') else c_sloppy_loop f chk slop (if last_pos <? c_pos p2 then c_pos p2 else last_pos) lens' l' q'
    end.
  Definition c_matches (fuel : nat) (chk : bool) (slop : Z) (l : list cpp) : option (list Z * list cpp) :=
    do x <- c_sloppy_first fuel chk 0 (length l) l (pq_new nat (length l)) 0;
    match fst x with None => Some ([], snd x) | Some (q, last_pos) => c_sloppy_loop fuel chk slop last_pos [] (snd x) q end.
  (* 407-422 exact_phrase_scorer_new, 522-534 sloppy_phrase_scorer_new: phsc->phrase_freq; of a sloppy phrase the number of matches stands for the sum of the
     positive numbers sim_sloppy_freq gives for them *)
  Definition c_freq_of (slop : Z) (chk : bool) (fuel idx : nat) (l : list cpp) : option (Z * nat * list cpp) :=
    if slop =? 0 then c_phrase_freq fuel l else do x <- c_matches fuel chk slop l; Some (Z.of_nat (length (fst x)), idx, snd x).
  (* 157-180 PhraseScorer *)
  Record csc := mkCsc { s_doc : Z; s_freq : Z; s_pos : list cpp; s_idx : nat; s_first : bool; s_more : bool; s_slop : Z; s_chk : bool }.
  (* 182-195 phsc_init, 273-288 phsc_skip_to *)
  Fixpoint c_move_all (op : option Z) (l : list cpp) : option (bool * list cpp) :=
    match l with
    | [] => Some (true, [])
    | p :: t => do x <- c_move_all op t; if fst x then do y <- cpp_move op p; Some (fst y, snd y :: snd x) else Some (false, p :: snd x)
    end.
  (* 197-240 phsc_do_next *)
  Fixpoint c_do_next (slop : Z) (chk : bool) (fuel : nat) (freq doc : Z) (h_i : nat) (more : bool) (idx li : nat) (l : list cpp) : option (bool * csc) :=
    match fuel with
    | O => None
    | S f =>
        if more then
          do first <- nth_error l idx;
          do last <- nth_error l li;
          if c_doc first <? c_doc last then
            do x <- cpp_move (Some (c_doc last)) first;
            c_do_next slop chk f freq doc h_i (fst x) (nxt idx (length l)) idx (upd l idx (snd x))
          else
            do x <- c_freq_of slop chk f idx l;
            let '(fr, idx', l') := x in
            if fr =? 0 then
              let li' := prv idx' (length l) in
              do p <- nth_error l' li';
              do y <- cpp_move None p;
              c_do_next slop chk f fr doc idx' (fst y) idx' li' (upd l' li' (snd y))
            else Some (true, mkCsc (c_doc first) fr l' idx' false true slop chk)
        else Some (false, mkCsc doc freq l h_i false false slop chk)
    end.
  Definition c_start (slop : Z) (chk : bool) (fuel : nat) (freq doc : Z) (more : bool) (idx : nat) (l : list cpp) : option (bool * csc) := c_do_next slop chk fuel freq doc idx more idx (prv idx (length l)) l.
  (* 252-266 phsc_next, 268-288 phsc_skip_to *)
  Definition csc_run (fuel : nat) (op : option Z) (s : csc) : option (bool * csc) :=
    match op with
    | None =>
        if s_first s then
          do x <- c_move_all None (s_pos s);
          c_start (s_slop s) (s_chk s) fuel (s_freq s) (s_doc s) (fst x) (if fst x then 0%nat else s_idx s) (if fst x then sort_by qs cpp_cmp (snd x) else snd x)
        else if s_more s then
          let i := prv (s_idx s) (length (s_pos s)) in
          do p <- nth_error (s_pos s) i;
          do x <- cpp_move None p;
          c_start (s_slop s) (s_chk s) fuel (s_freq s) (s_doc s) (fst x) (s_idx s) (upd (s_pos s) i (snd x))
        else c_start (s_slop s) (s_chk s) fuel (s_freq s) (s_doc s) false (s_idx s) (s_pos s)
    | Some d =>
        do x <- c_move_all (Some d) (s_pos s);
        do y <- c_start (s_slop s) (s_chk s) fuel (s_freq s) (s_doc s) (fst x) (if fst x then 0%nat else s_idx s) (if fst x then sort_by qs cpp_cmp (snd x) else snd x);
        Some (fst y, mkCsc (s_doc (snd y)) (s_freq (snd y)) (s_pos (snd y)) (s_idx (snd y)) (s_first s) (s_more (snd y)) (s_slop s) (s_chk s))
    end.
  (* 549-574 phw_scorer, 313-358 phsc_new: positions with their offsets *)
  Fixpoint open_all (t : tir) (f : Z) (ps : list (Z * list (list Z))) : option (list cpp * tir) :=
    match ps with
    | [] => Some ([], t)
    | (o, ts) :: ps' => do e <- tpe_open r del t f ts; do x <- open_all (snd e) f ps'; Some (cpp_new (fst e) o :: fst x, snd x)
    end.
  (* 326-342: some term is there twice, of one position or of two *)
  Fixpoint repeats (seen ts : list (list Z)) : bool :=
    match ts with [] => false | t :: ts' => if existsb (seqb t) seen then true else repeats (t :: seen) ts' end.
  (* None inside: no scorer *)
  Definition phw_scorer (t : tir) (f : option Z) (slop : Z) (ps : list (Z * list (list Z))) : option (option csc * tir) :=
    match ps, f with
    | _ :: _, Some n => do x <- open_all t n ps; Some (Some (mkCsc 0 0 (fst x) 0 true true slop (negb (slop =? 0) && repeats [] (flat_map snd ps))), snd x)
    | _, _ => Some (None, t)
    end.
End PHRASE.
