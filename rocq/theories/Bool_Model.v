(* Model of the scorers of boolean queries, c/src/q_boolean.c 46-1160, over term scorers (c/src/q_term.c 50-90, on a list of documents; Leaf_Model
   has scorers on the files of an index) and the scorer of
   MatchAllQuery (c/src/q_match_all.c 27-44).
   Which documents a scorer stops at; scores, coordination and explanations are left out.  rossc_score moves the optional scorer of a
   ReqOptSumScorer, which no next or skip_to looks at, so that scorer does not move here.
   A scorer owns its sub-scorers, so they are part of its state.  The result None of a run is undefined behaviour (a NULL sub-scorer is
   called, the queue is empty) or not enough fuel. *)
From Verif Require Import Util PQueue_Model Query_Model Leaf_Model.
Open Scope Z_scope.

Inductive sc :=
| Term (doc : Z) (cache rest : list Z)             (* docs[pointer + 1 ..], the documents left in the TermDocEnum *)
| Leaf (l : leaf)                                  (* scorers on a reader *)
| All (doc max_doc : Z) (deleted : Z -> bool)
| One (doc : Z) (s : sc)                           (* SingleMatchScorer *)
| Dis (doc min_num : Z) (queue : option (pq sc)) (subs : list sc)
| Con (doc : Z) (first_time more : bool) (first_idx : nat) (subs : list sc)
| Opt (doc : Z) (req opt : sc)                     (* ReqOptSumScorer *)
| Excl (doc : Z) (first_time : bool) (req excl : option sc)
| Non
| Bsc (doc : Z) (sum : option sc) (req opt pro : list sc).
Definition doc_of (s : sc) : Z :=
  match s with Leaf l => leaf_doc l | Term d _ _ | All d _ _ | One d _ | Dis d _ _ _ | Con d _ _ _ _ | Opt d _ _ | Excl d _ _ _ | Bsc d _ _ _ _ => d | Non => 0 end.
(* search.c:493 scorer_doc_less_than *)
Definition doc_lt (a b : sc) : bool := doc_of a <? doc_of b.
Fixpoint from (d : Z) (l : list Z) : list Z := match l with [] => [] | x :: t => if x <? d then from d t else l end.

(* 50-68 tsc_next: TDE_READ_SIZE is 32 *)
Definition tsc_next (doc : Z) (cache rest : list Z) : bool * sc :=
  match cache with
  | x :: c => (true, Term x c rest)
  | [] => match firstn 32 rest with [] => (false, Term doc [] (skipn 32 rest)) | x :: c => (true, Term x c (skipn 32 rest)) end
  end.
(* 70-92 tsc_skip_to *)
Definition tsc_skip_to (doc : Z) (cache rest : list Z) (d : Z) : bool * sc :=
  match from d cache with
  | x :: c => (true, Term x c rest)
  | [] => match from d rest with [] => (false, Term doc [] []) | x :: r => (true, Term x [] r) end
  end.
(* q_match_all.c 27-36 masc_next *)
Fixpoint masc_next (n : nat) (doc max : Z) (del : Z -> bool) : bool * sc :=
  match n with
  | O => (false, All doc max del)
  | S m => if doc <? max - 1 then (if del (doc + 1) then masc_next m (doc + 1) max del else (true, All (doc + 1) max del)) else (false, All doc max del)
  end.
(* 861-998 counting_sum_scorer_create, create2, create3 *)
Definition dis_new (l : list sc) : sc := Dis (-1) 1 None l.
Definition pro_of (pro : list sc) : sc := match pro with [p] => p | _ => dis_new pro end.
Definition create2 (req : sc) (opt pro : list sc) : sc :=
  let r := match pro with [] => req | _ => Excl 0 true (Some req) (Some (pro_of pro)) end in
  match opt with [] => r | [o] => Opt 0 r (One 0 o) | _ => Opt 0 r (dis_new opt) end.
Definition create (req opt pro : list sc) : sc :=
  match req with
  | [] => match opt with [] => Non | [o] => create2 (One 0 o) [] pro | _ => create2 (dis_new opt) [] pro end
  | [r] => create2 (One 0 r) opt pro
  | _ => create2 (Con 0 true true 0 req) opt pro
  end.

Section CALL.
  Variable call : option Z -> sc -> option (bool * sc).   (* next (None) and skip_to of a sub-scorer *)
  Notation next := (call None).
  Notation skip_to := (fun d => call (Some d)).
  (* ---------- DisjunctionSumScorer *)
  (* 70-83 dssc_init_scorer_queue *)
  Fixpoint dis_fill (subs : list sc) (q : pq sc) : option (pq sc) :=
    match subs with
    | [] => Some q
    | s :: t => do r <- next s; if fst r then do x <- pq_insert sc doc_lt q (snd r); dis_fill t (snd x) else dis_fill t q
    end.
  Definition dis_queue (queue : option (pq sc)) (subs : list sc) : option (pq sc) := match queue with Some q => Some q | None => dis_fill subs (pq_new sc (length subs)) end.
  Definition top_of (q : pq sc) : option sc := do t <- pq_top sc q; t.
  (* the inner loop of 85-130 dssc_advance_after_current: Some (Some n): n sub-scorers match; Some None: return false *)
  Fixpoint dis_inner (fuel : nat) (mm doc num : Z) (top : sc) (q : pq sc) : option (option Z * pq sc) :=
    match fuel with
    | O => None
    | S f =>
        do r <- next top;
        if fst r then
          do q' <- pq_replace_top sc doc_lt q (snd r);
          do t <- top_of q';
          if doc_of t =? doc then dis_inner f mm doc (num + 1) t q' else Some (Some num, q')
        else
          do p <- pq_pop sc doc_lt q;
          let q' := snd p in
          if Z.of_nat (pq_size q') <? mm - num then Some (None, q')
          else if (pq_size q' =? 0)%nat then Some (Some num, q')
          else do t <- top_of q'; if doc_of t =? doc then dis_inner f mm doc (num + 1) t q' else Some (Some num, q')
    end.
  Fixpoint dis_advance (fuel : nat) (mm : Z) (q : pq sc) : option (bool * Z * pq sc) :=
    match fuel with
    | O => None
    | S f =>
        do t <- top_of q;
        do r <- dis_inner f mm (doc_of t) 1 t q;
        match fst r with
        | None => Some (false, doc_of t, snd r)
        | Some n => if mm <=? n then Some (true, doc_of t, snd r) else if Z.of_nat (pq_size (snd r)) <? mm then Some (false, doc_of t, snd r) else dis_advance f mm (snd r)
        end
    end.
  (* 132-144 dssc_next *)
  Definition dis_next (fuel : nat) (doc mm : Z) (queue : option (pq sc)) (subs : list sc) : option (bool * sc) :=
    do q <- dis_queue queue subs;
    if Z.of_nat (pq_size q) <? mm then Some (false, Dis doc mm (Some q) subs)
    else do r <- dis_advance fuel mm q; Some (fst (fst r), Dis (snd (fst r)) mm (Some (snd r)) subs).
  (* 146-179 dssc_skip_to *)
  Fixpoint dis_skip (fuel : nat) (doc mm d : Z) (q : pq sc) (subs : list sc) : option (bool * sc) :=
    match fuel with
    | O => None
    | S f =>
        do t <- top_of q;
        if d <=? doc_of t then do r <- dis_advance f mm q; Some (fst (fst r), Dis (snd (fst r)) mm (Some (snd r)) subs)
        else do r <- skip_to d t;
             if fst r then do q' <- pq_replace_top sc doc_lt q (snd r); dis_skip f doc mm d q' subs
             else do p <- pq_pop sc doc_lt q; if Z.of_nat (pq_size (snd p)) <? mm then Some (false, Dis doc mm (Some (snd p)) subs) else dis_skip f doc mm d (snd p) subs
    end.
  Definition dis_skip_to (fuel : nat) (doc mm : Z) (queue : option (pq sc)) (subs : list sc) (d : Z) : option (bool * sc) :=
    do q <- dis_queue queue subs;
    if Z.of_nat (pq_size q) <? mm then Some (false, Dis doc mm (Some q) subs)
    else dis_skip fuel doc mm (if d <=? doc then doc + 1 else d) q subs.
  (* ---------- ConjunctionScorer *)
  (* 269-285 csc_sort_scorers, from the second scorer on; false: more = false *)
  Fixpoint con_sort (prev : sc) (l : list sc) : option (bool * list sc) :=
    match l with
    | [] => Some (true, [])
    | s :: t =>
        if doc_of s <? doc_of prev then
          do r <- skip_to (doc_of prev) s;
          if fst r then do x <- con_sort (snd r) t; Some (fst x, snd r :: snd x) else Some (false, snd r :: t)
        else do x <- con_sort s t; Some (fst x, s :: snd x)
    end.
  Definition con_sort_all (l : list sc) : option (bool * list sc) := match l with [] => None | s :: t => do x <- con_sort s t; Some (fst x, s :: snd x) end.
  (* the loops that move every sub-scorer as long as there is more *)
  Fixpoint con_each (op : option Z) (l : list sc) : option (bool * list sc) :=
    match l with
    | [] => Some (true, [])
    | s :: t => do r <- call op s; if fst r then do x <- con_each op t; Some (fst x, snd r :: snd x) else Some (false, snd r :: t)
    end.
  Definition prev_num (i n : nat) : nat := ((i + n - 1) mod n)%nat.
  Definition next_num (i n : nat) : nat := ((i + 1) mod n)%nat.
  (* 331-352 csc_do_next *)
  Fixpoint con_do_next (fuel : nat) (more : bool) (idx : nat) (last : sc) (l : list sc) : option (bool * sc) :=
    match fuel with
    | O => None
    | S f =>
        do first <- nth_error l idx;
        if more && (doc_of first <? doc_of last) then
          do r <- skip_to (doc_of last) first;
          con_do_next f (fst r) (next_num idx (length l)) (snd r) (upd l idx (snd r))
        else Some (more, Con (doc_of first) false more idx l)
    end.
  Definition con_start (fuel : nat) (more : bool) (idx : nat) (l : list sc) : option (bool * sc) := do last <- nth_error l (prev_num idx (length l)); con_do_next fuel more idx last l.
  (* 354-368 csc_next, 287-314 csc_init *)
  Definition con_next (fuel : nat) (first_time more : bool) (idx : nat) (l : list sc) : option (bool * sc) :=
    if first_time then
      do r <- con_each None l;
      if fst r then do x <- con_sort_all (snd r); con_start fuel (fst x) (if fst x then 0%nat else idx) (snd x)
      else con_start fuel false idx (snd r)
    else if more then
      let i := prev_num idx (length l) in
      do s <- nth_error l i;
      do r <- next s;
      con_start fuel (fst r) idx (upd l i (snd r))
    else con_start fuel more idx l.
  (* 370-398 csc_skip_to: csc->more is overwritten with more *)
  Definition con_skip_to (fuel : nat) (more : bool) (idx : nat) (l : list sc) (d : Z) : option (bool * sc) :=
    if more then
      do r <- con_each (Some d) l;
      if fst r then do x <- con_sort_all (snd r); con_start fuel true (if fst x then 0%nat else idx) (snd x)
      else con_start fuel false idx (snd r)
    else con_start fuel false idx l.
  (* ---------- ReqExclScorer *)
  (* 628-659 rxsc_to_non_excluded *)
  Fixpoint non_excluded (fuel : nat) (doc : Z) (req excl : sc) : option (bool * sc) :=
    match fuel with
    | O => None
    | S f =>
        let again ex := do r <- next req; if fst r then non_excluded f doc (snd r) ex else Some (false, Excl doc false None (Some ex)) in
        let rd := doc_of req in
        let xd := doc_of excl in
        if rd <? xd then Some (true, Excl rd false (Some req) (Some excl))
        else if xd <? rd then
          do x <- skip_to rd excl;
          if fst x then (if rd <? doc_of (snd x) then Some (true, Excl rd false (Some req) (Some (snd x))) else again (snd x))
          else Some (true, Excl rd false (Some req) None)
        else again excl
    end.
  (* 661-688 rxsc_next *)
  Definition excl_next (fuel : nat) (doc : Z) (first_time : bool) (req excl : option sc) : option (bool * sc) :=
    do ex <- (if first_time then do e <- excl; do r <- next e; Some (if fst r then Some (snd r) else None) else Some excl);
    match req with
    | None => Some (false, Excl doc false None ex)
    | Some q =>
        do r <- next q;
        if fst r then match ex with None => Some (true, Excl (doc_of (snd r)) false (Some (snd r)) None) | Some e => non_excluded fuel doc (snd r) e end
        else Some (false, Excl doc false None ex)
    end.
  (* 690-720 rxsc_skip_to *)
  Definition excl_skip_to (fuel : nat) (doc : Z) (first_time : bool) (req excl : option sc) (d : Z) : option (bool * sc) :=
    do ex <- (if first_time then do e <- excl; do r <- skip_to d e; Some (if fst r then Some (snd r) else None) else Some excl);
    match req with
    | None => Some (false, Excl doc false None ex)
    | Some q =>
        do r <- skip_to d q;
        match ex with
        | None => Some (fst r, Excl (if fst r then doc_of (snd r) else doc) false (Some (snd r)) None)
        | Some e => if fst r then non_excluded fuel doc (snd r) e else Some (false, Excl doc false None ex)
        end
    end.
End CALL.

(* self->next and self->skip_to *)
Fixpoint run (fuel : nat) (op : option Z) (s : sc) : option (bool * sc) :=
  match fuel with
  | O => None
  | S f =>
      match s with
      | Term doc c l => Some (match op with None => tsc_next doc c l | Some d => tsc_skip_to doc c l d end)
      | Leaf l => do r <- leaf_run f op l; Some (fst r, Leaf (snd r))
      | All doc mx del => Some (match op with None => masc_next (Z.to_nat (mx - doc)) doc mx del | Some d => masc_next (Z.to_nat (mx - (d - 1))) (d - 1) mx del end)
      | One doc s1 => do r <- run f op s1; Some (fst r, One (if fst r then doc_of (snd r) else doc) (snd r))
      | Dis doc mm q subs => match op with None => dis_next (run f) f doc mm q subs | Some d => dis_skip_to (run f) f doc mm q subs d end
      | Con doc ft more idx l => match op with None => con_next (run f) f ft more idx l | Some d => con_skip_to (run f) f more idx l d end
      | Opt doc rq op1 => do r <- run f op rq; Some (fst r, Opt (if fst r then doc_of (snd r) else doc) (snd r) op1)
      | Excl doc ft rq ex => match op with None => excl_next (run f) f doc ft rq ex | Some d => excl_skip_to (run f) f doc ft rq ex d end
      | Non => Some (false, Non)
      | Bsc doc sum rq op1 pr => do r <- run f op (match sum with Some c => c | None => create rq op1 pr end); Some (fst r, Bsc (if fst r then doc_of (snd r) else doc) (Some (snd r)) rq op1 pr)
      end
  end.
(* while (scorer->next(scorer)) in isea_search_w *)
Fixpoint docs_of (fuel : nat) (s : sc) : option (list Z) :=
  match fuel with
  | O => None
  | S f => do r <- run f None s; if fst r then do l <- docs_of f (snd r); Some (doc_of (snd r) :: l) else Some []
  end.

(* ---------- queries: a leaf is given by the documents of its scorer (None: there is no scorer) *)
Inductive bquery := BTerm (docs : option (list Z)) | BAll (max_doc : Z) (deleted : Z -> bool) | BBool (cs : list (occur * bquery)).
(* 1140-1160 bw_scorer *)
Fixpoint add_all (l : list (occur * option sc)) (req opt pro : list sc) : option sc :=
  match l with
  | [] => Some (Bsc 0 None req opt pro)
  | (o, Some s) :: t => match o with Must => add_all t (req ++ [s]) opt pro | Should => add_all t req (opt ++ [s]) pro | MustNot => add_all t req opt (pro ++ [s]) end
  | (o, None) :: t => match o with Must => None | _ => add_all t req opt pro end
  end.
Fixpoint scorer_of (q : bquery) : option sc :=
  match q with
  | BTerm (Some l) => Some (Term 0 [] l)
  | BTerm None => None
  | BAll mx del => Some (All (-1) mx del)
  | BBool cs => add_all (map (fun c : occur * bquery => (fst c, scorer_of (snd c))) cs) [] [] []
  end.
