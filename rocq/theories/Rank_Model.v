(* Model of the scores of documents: the weights of a query (c/src/search.c 225-273, 355-366; c/src/q_boolean.c 1092-1263), the scores its scorers
   compute while they walk (c/src/q_term.c 17-92, c/src/q_match_all.c 12-60, c/src/q_const_score.c 12-60, c/src/q_boolean.c 19-1090) and the explanations
   of scores (bw_explain q_boolean.c 1179-1239, tw_explain q_term.c 155-229, maw_explain q_match_all.c 79-92, csw_explain q_const_score.c 69-89).
   How the scorers move is as in Bool_Model; here a disjunction scores its sub-scorers while it moves, and scoring moves optional scorers.
   Numbers are rationals instead of floats: rounding is left out.  The similarity is any; only the conjunction's own factor coord(n, n) is taken to be 1,
   because it comes from the default similarity (q_boolean.c 424, similarity.c 104).
   A term query is given by the (document, frequency) pairs of its TermDocEnum and the decoded norms of its field; None: a query without a scorer, such as
   a MultiTermQuery without terms.  Queries are already rewritten.  Scorers of phrases and several terms are not here. *)
From Coq Require Import QArith.Qcanon.
From Verif Require Import Util PQueue_Model Query_Model.
Open Scope Z_scope.

Record sim := { tf : Z -> Qc; coord : nat -> nat -> Qc; query_norm : Qc -> Qc }.

Inductive sc :=
| Term (w : Qc) (norm : Z -> Qc) (doc freq : Z) (cache rest : list (Z * Z))   (* docs and freqs at the pointer, after it, left in the TermDocEnum *)
| Bits (w : Qc) (doc : Z) (rest : list Z)                                     (* ConstantScoreScorer, the set bits after the current one *)
| All (w : Qc) (doc max_doc : Z) (deleted : Z -> bool)
| One (doc : Z) (s : sc)                                                      (* SingleMatchScorer *)
| Dis (doc : Z) (num : nat) (cum : Qc) (queue : option (pq sc)) (subs : list sc)   (* min_num_matches is 1 wherever one is made *)
| Con (doc : Z) (first_time more : bool) (first_idx : nat) (last_scored : Z) (subs : list sc)
| Opt (doc : Z) (first_time_opt : bool) (req : sc) (opt : option sc)          (* ReqOptSumScorer *)
| Excl (doc : Z) (first_time : bool) (req excl : option sc)
| Non
| Bsc (no_coord : bool) (doc : Z) (sum : option sc) (req opt pro : list sc).
Definition doc_of (s : sc) : Z :=
  match s with Term _ _ d _ _ _ | Bits _ d _ | All _ d _ _ | One d _ | Dis d _ _ _ _ | Con d _ _ _ _ _ | Opt d _ _ _ | Excl d _ _ _ | Bsc _ d _ _ _ _ => d | Non => 0 end.
Definition doc_lt (a b : sc) : bool := doc_of a <? doc_of b.
Fixpoint fromp (d : Z) (l : list (Z * Z)) : list (Z * Z) := match l with [] => [] | x :: t => if fst x <? d then fromp d t else l end.
Fixpoint fromz (d : Z) (l : list Z) : list Z := match l with [] => [] | x :: t => if x <? d then fromz d t else l end.

(* q_term.c 50-68 tsc_next, 70-92 tsc_skip_to *)
Definition tsc_next (w : Qc) (nm : Z -> Qc) (doc freq : Z) (cache rest : list (Z * Z)) : bool * sc :=
  match cache with
  | x :: c => (true, Term w nm (fst x) (snd x) c rest)
  | [] => match firstn 32 rest with [] => (false, Term w nm doc freq [] (skipn 32 rest)) | x :: c => (true, Term w nm (fst x) (snd x) c (skipn 32 rest)) end
  end.
Definition tsc_skip_to (w : Qc) (nm : Z -> Qc) (doc freq : Z) (cache rest : list (Z * Z)) (d : Z) : bool * sc :=
  match fromp d cache with
  | x :: c => (true, Term w nm (fst x) (snd x) c rest)
  | [] => match fromp d rest with [] => (false, Term w nm doc freq [] []) | x :: r => (true, Term w nm (fst x) (snd x) [] r) end
  end.
(* 110-131 tsc_new fills score_cache, 32-48 tsc_score *)
Definition score_cache (sm : sim) (w : Qc) : list Qc := map (fun i => (tf sm (Z.of_nat i) * w)%Qc) (seq 0 32).
Definition tsc_score (sm : sim) (w : Qc) (nm : Z -> Qc) (doc freq : Z) : option Qc :=
  do s <- (if freq <? 32 then (if freq <? 0 then None else nth_error (score_cache sm w) (Z.to_nat freq)) else Some (tf sm freq * w)%Qc);
  Some (s * nm doc)%Qc.
(* q_const_score.c 28-36: scanning the bits; self->doc is -1 when there are no more *)
Definition cssc_move (w : Qc) (l : list Z) : bool * sc := match l with [] => (false, Bits w (-1) []) | x :: r => (true, Bits w x r) end.
(* q_match_all.c 27-36 masc_next *)
Fixpoint masc_next (w : Qc) (n : nat) (doc max : Z) (del : Z -> bool) : bool * sc :=
  match n with
  | O => (false, All w doc max del)
  | S m => if doc <? max - 1 then (if del (doc + 1) then masc_next w m (doc + 1) max del else (true, All w (doc + 1) max del)) else (false, All w doc max del)
  end.
(* 856-970 counting_sum_scorer_create3, create2, create *)
Definition dis_new (l : list sc) : sc := Dis (-1) 0 0%Qc None l.
Definition pro_of (pro : list sc) : sc := match pro with [p] => p | _ => dis_new pro end.
Definition create2 (req : sc) (opt pro : list sc) : sc :=
  let r := match pro with [] => req | _ => Excl 0 true (Some req) (Some (pro_of pro)) end in
  match opt with [] => r | [o] => Opt 0 true r (Some (One 0 o)) | _ => Opt 0 true r (Some (dis_new opt)) end.
Definition create (req opt pro : list sc) : sc :=
  match req with
  | [] => match opt with [] => Non | [o] => create2 (One 0 o) [] pro | _ => create2 (dis_new opt) [] pro end
  | [r] => create2 (One 0 r) opt pro
  | _ => create2 (Con 0 true true 0 (-1) req) opt pro
  end.

Section CALL.
  Variable call : option Z -> sc -> option (bool * sc).   (* next (None) and skip_to of a sub-scorer *)
  Variable mark : sc -> option (Qc * nat * sc).           (* its score, what it adds to the coordinator's num_matches, itself afterwards *)
  Notation next := (call None).
  Notation skip_to := (fun d => call (Some d)).
  (* ---------- DisjunctionSumScorer *)
  (* 70-83 dssc_init_scorer_queue *)
  Fixpoint dis_fill (subs : list sc) (q : pq sc) : option (pq sc) :=
    match subs with
    | [] => Some q
    | s :: t => do r <- next s; if fst r then do x <- pq_insert sc doc_lt q (snd r); dis_fill t (snd x) else dis_fill t q
    end.
  Definition dis_queue (queue : option (pq sc)) (subs : list sc) : option (pq sc) := match queue with Some q => Some q | None => dis_fill subs (pq_new sc (length subs)) end.
  Definition top_of (q : pq sc) : option sc := do t <- pq_top sc q; t.
  (* 85-132 dssc_advance_after_current: every sub-scorer at doc is scored and moved on.  With min_num_matches 1 the outer loop runs once. *)
  Fixpoint dis_inner (fuel : nat) (doc : Z) (num : nat) (cum : Qc) (top : sc) (q : pq sc) : option (nat * Qc * pq sc) :=
    match fuel with
    | O => None
    | S f =>
        do v <- mark top;
        let cum' := (cum + fst (fst v))%Qc in
        let num' := S num in
        do r <- next (snd v);
        if fst r then
          do q' <- pq_replace_top sc doc_lt q (snd r);
          do t <- top_of q';
          if doc_of t =? doc then dis_inner f doc num' cum' t q' else Some (num', cum', q')
        else
          do p <- pq_pop sc doc_lt q;
          let q' := snd p in
          if (pq_size q' =? 0)%nat then Some (num', cum', q')
          else do t <- top_of q'; if doc_of t =? doc then dis_inner f doc num' cum' t q' else Some (num', cum', q')
    end.
  Definition dis_advance (fuel : nat) (q : pq sc) (subs : list sc) : option (bool * sc) :=
    do t <- top_of q;
    do r <- dis_inner fuel (doc_of t) 0 0%Qc t q;
    Some (true, Dis (doc_of t) (fst (fst r)) (snd (fst r)) (Some (snd r)) subs).
  (* 134-146 dssc_next *)
  Definition dis_next (fuel : nat) (doc : Z) (num : nat) (cum : Qc) (queue : option (pq sc)) (subs : list sc) : option (bool * sc) :=
    do q <- dis_queue queue subs;
    if (pq_size q <? 1)%nat then Some (false, Dis doc num cum (Some q) subs) else dis_advance fuel q subs.
  (* 148-184 dssc_skip_to *)
  Fixpoint dis_skip (fuel : nat) (doc : Z) (num : nat) (cum : Qc) (d : Z) (q : pq sc) (subs : list sc) : option (bool * sc) :=
    match fuel with
    | O => None
    | S f =>
        do t <- top_of q;
        if d <=? doc_of t then dis_advance f q subs
        else do r <- skip_to d t;
             if fst r then do q' <- pq_replace_top sc doc_lt q (snd r); dis_skip f doc num cum d q' subs
             else do p <- pq_pop sc doc_lt q; if (pq_size (snd p) <? 1)%nat then Some (false, Dis doc num cum (Some (snd p)) subs) else dis_skip f doc num cum d (snd p) subs
    end.
  Definition dis_skip_to (fuel : nat) (doc : Z) (num : nat) (cum : Qc) (queue : option (pq sc)) (subs : list sc) (d : Z) : option (bool * sc) :=
    do q <- dis_queue queue subs;
    if (pq_size q <? 1)%nat then Some (false, Dis doc num cum (Some q) subs)
    else dis_skip fuel doc num cum (if d <=? doc then doc + 1 else d) q subs.
  (* ---------- ConjunctionScorer *)
  (* 282-298 csc_sort_scorers, from the second scorer on; false: more = false *)
  Fixpoint con_sort (prev : sc) (l : list sc) : option (bool * list sc) :=
    match l with
    | [] => Some (true, [])
    | s :: t =>
        if doc_of s <? doc_of prev then
          do r <- skip_to (doc_of prev) s;
          if fst r then do x <- con_sort (snd r) t; Some (fst x, snd r :: snd x) else Some (false, snd r :: t)
        else do x <- con_sort s t; Some (fst x, s :: snd x)
    end.
  Definition con_sort_all (l : list sc) : option (bool * list sc) := match l with [] => None | s :: t => do x <- con_sort s t; Some (fst x, s :: snd x) end.
  Fixpoint con_each (op : option Z) (l : list sc) : option (bool * list sc) :=
    match l with
    | [] => Some (true, [])
    | s :: t => do r <- call op s; if fst r then do x <- con_each op t; Some (fst x, snd r :: snd x) else Some (false, snd r :: t)
    end.
  Definition prev_num (i n : nat) : nat := ((i + n - 1) mod n)%nat.
  Definition next_num (i n : nat) : nat := ((i + 1) mod n)%nat.
  (* 342-362 csc_do_next *)
  Fixpoint con_do_next (fuel : nat) (more : bool) (idx : nat) (ls : Z) (last : sc) (l : list sc) : option (bool * sc) :=
    match fuel with
    | O => None
    | S f =>
        do first <- nth_error l idx;
        if more && (doc_of first <? doc_of last) then
          do r <- skip_to (doc_of last) first;
          con_do_next f (fst r) (next_num idx (length l)) ls (snd r) (upd l idx (snd r))
        else Some (more, Con (doc_of first) false more idx ls l)
    end.
  Definition con_start (fuel : nat) (more : bool) (idx : nat) (ls : Z) (l : list sc) : option (bool * sc) := do last <- nth_error l (prev_num idx (length l)); con_do_next fuel more idx ls last l.
  (* 364-377 csc_next, 300-326 csc_init *)
  Definition con_next (fuel : nat) (first_time more : bool) (idx : nat) (ls : Z) (l : list sc) : option (bool * sc) :=
    if first_time then
      do r <- con_each None l;
      if fst r then do x <- con_sort_all (snd r); con_start fuel (fst x) (if fst x then 0%nat else idx) ls (snd x)
      else con_start fuel false idx ls (snd r)
    else if more then
      let i := prev_num idx (length l) in
      do s <- nth_error l i;
      do r <- next s;
      con_start fuel (fst r) idx ls (upd l i (snd r))
    else con_start fuel more idx ls l.
  (* 379-406 csc_skip_to: csc->more is overwritten with more *)
  Definition con_skip_to (fuel : nat) (more : bool) (idx : nat) (ls : Z) (l : list sc) (d : Z) : option (bool * sc) :=
    if more then
      do r <- con_each (Some d) l;
      if fst r then do x <- con_sort_all (snd r); con_start fuel true (if fst x then 0%nat else idx) ls (snd x)
      else con_start fuel false idx ls (snd r)
    else con_start fuel false idx ls l.
  (* 328-340 csc_score *)
  Fixpoint mark_all (l : list sc) : option (Qc * list sc) :=
    match l with
    | [] => Some (0%Qc, [])
    | s :: t => do v <- mark s; do x <- mark_all t; Some ((fst (fst v) + fst x)%Qc, snd v :: snd x)
    end.
  (* 436-447 ccsc_score: the clauses are counted once for a document *)
  Definition con_score (doc : Z) (ft more : bool) (idx : nat) (ls : Z) (l : list sc) : option (Qc * nat * sc) :=
    do x <- mark_all l;
    Some (fst x, if ls <? doc then length l else 0%nat, Con doc ft more idx (if ls <? doc then doc else ls) (snd x)).
  (* ---------- ReqOptSumScorer: 547-574 rossc_score *)
  Definition opt_score (doc : Z) (ft : bool) (req : sc) (opt : option sc) : option (Qc * nat * sc) :=
    let cur := doc_of req in
    do v <- mark req;
    let alone := Some (fst v, Opt doc false (snd v) None) in
    let both o := if doc_of o =? cur then do y <- mark o; Some (((fst (fst v) + fst (fst y))%Qc, (snd (fst v) + snd (fst y))%nat), Opt doc false (snd v) (Some (snd y)))
                  else Some (fst v, Opt doc false (snd v) (Some o)) in
    let reach o := do x <- skip_to cur o; if fst x then both (snd x) else alone in
    if ft then do o <- opt; reach o
    else match opt with None => alone | Some o => if doc_of o <? cur then reach o else both o end.
  (* ---------- ReqExclScorer *)
  (* 650-681 rxsc_to_non_excluded *)
  Fixpoint non_excluded (fuel : nat) (doc : Z) (req excl : sc) : option (bool * sc) :=
    match fuel with
    | O => None
    | S f =>
        let again ex := do r <- next req; if fst r then non_excluded f doc (snd r) ex else Some (false, Excl doc false None (Some ex)) in
        let rd := doc_of req in
        let xd := doc_of excl in
        if rd <? xd then Some (true, Excl rd false (Some req) (Some excl))
        else if xd <? rd then
          do x <- skip_to rd excl;
          if fst x then (if rd <? doc_of (snd x) then Some (true, Excl rd false (Some req) (Some (snd x))) else again (snd x))
          else Some (true, Excl rd false (Some req) None)
        else again excl
    end.
  (* 683-710 rxsc_next *)
  Definition excl_next (fuel : nat) (doc : Z) (first_time : bool) (req excl : option sc) : option (bool * sc) :=
    do ex <- (if first_time then do e <- excl; do r <- next e; Some (if fst r then Some (snd r) else None) else Some excl);
    match req with
    | None => Some (false, Excl doc false None ex)
    | Some q =>
        do r <- next q;
        if fst r then match ex with None => Some (true, Excl (doc_of (snd r)) false (Some (snd r)) None) | Some e => non_excluded fuel doc (snd r) e end
        else Some (false, Excl doc false None ex)
    end.
  (* 713-742 rxsc_skip_to *)
  Definition excl_skip_to (fuel : nat) (doc : Z) (first_time : bool) (req excl : option sc) (d : Z) : option (bool * sc) :=
    do ex <- (if first_time then do e <- excl; do r <- skip_to d e; Some (if fst r then Some (snd r) else None) else Some excl);
    match req with
    | None => Some (false, Excl doc false None ex)
    | Some q =>
        do r <- skip_to d q;
        match ex with
        | None => Some (fst r, Excl (if fst r then doc_of (snd r) else doc) false (Some (snd r)) None)
        | Some e => if fst r then non_excluded fuel doc (snd r) e else Some (false, Excl doc false None ex)
        end
    end.
  (* self->next and self->skip_to *)
  Definition step (fuel : nat) (op : option Z) (s : sc) : option (bool * sc) :=
    match s with
    | Term w nm doc fr c l => Some (match op with None => tsc_next w nm doc fr c l | Some d => tsc_skip_to w nm doc fr c l d end)
    | Bits w doc l => Some (cssc_move w (match op with None => l | Some d => fromz d l end))
    | All w doc mx del => Some (match op with None => masc_next w (Z.to_nat (mx - doc)) doc mx del | Some d => masc_next w (Z.to_nat (mx - (d - 1))) (d - 1) mx del end)
    | One doc s1 => do r <- call op s1; Some (fst r, One (if fst r then doc_of (snd r) else doc) (snd r))
    | Dis doc num cum q subs => match op with None => dis_next fuel doc num cum q subs | Some d => dis_skip_to fuel doc num cum q subs d end
    | Con doc ft more idx ls l => match op with None => con_next fuel ft more idx ls l | Some d => con_skip_to fuel more idx ls l d end
    | Opt doc ft rq op1 => do r <- call op rq; Some (fst r, Opt (if fst r then doc_of (snd r) else doc) ft (snd r) op1)
    | Excl doc ft rq ex => match op with None => excl_next fuel doc ft rq ex | Some d => excl_skip_to fuel doc ft rq ex d end
    | Non => Some (false, Non)
    | Bsc nc doc sum rq op1 pr => do r <- call op (match sum with Some c => c | None => create rq op1 pr end); Some (fst r, Bsc nc (if fst r then doc_of (snd r) else doc) (Some (snd r)) rq op1 pr)
    end.
  (* self->score: masc_score, cssc_score, smsc_score 479, cdssc_score 246, nmsc_score, rxsc_score 744, 998-1006 bsc_score with 33-45 coord_init; the
     max_coord of bsc_add_scorer (972-996) counts the scorers that are not prohibited *)
  Definition score_step (sm : sim) (s : sc) : option (Qc * nat * sc) :=
    match s with
    | Term w nm doc fr _ _ => do v <- tsc_score sm w nm doc fr; Some (v, 0%nat, s)
    | Bits w _ _ | All w _ _ _ => Some (w, 0%nat, s)
    | One doc s1 => do v <- mark s1; Some (fst (fst v), 1%nat, One doc (snd v))
    | Dis _ num cum _ _ => Some (cum, num, s)
    | Con doc ft more idx ls l => con_score doc ft more idx ls l
    | Opt doc ft rq op1 => opt_score doc ft rq op1
    | Excl doc ft rq ex => do r <- rq; do v <- mark r; Some (fst v, Excl doc ft (Some (snd v)) ex)
    | Non => Some (0%Qc, 0%nat, Non)
    | Bsc nc doc sum rq op1 pr =>
        do c <- sum;
        do v <- mark c;
        let n := snd (fst v) in
        let mx := (length rq + length op1)%nat in
        if (n <=? mx)%nat then Some ((fst (fst v) * (if nc then 1 else coord sm n mx))%Qc, 0%nat, Bsc nc doc (Some (snd v)) rq op1 pr) else None
    end.
End CALL.
Fixpoint mach (sm : sim) (fuel : nat) : (option Z -> sc -> option (bool * sc)) * (sc -> option (Qc * nat * sc)) :=
  match fuel with
  | O => (fun _ _ => None, fun _ => None)
  | S f => let m := mach sm f in (step (fst m) (snd m) f, score_step (fst m) (snd m) sm)
  end.
Definition run (sm : sim) (fuel : nat) := fst (mach sm fuel).
Definition score (sm : sim) (fuel : nat) := snd (mach sm fuel).
(* search.c 1078-1093, the loop of isea_search_w: documents that are not in the bits of the filter are not scored *)
Fixpoint hits (sm : sim) (fuel : nat) (bits : Z -> bool) (s : sc) : option (list (Z * Qc)) :=
  match fuel with
  | O => None
  | S f =>
      do r <- run sm f None s;
      if fst r then
        if bits (doc_of (snd r)) then do v <- score sm f (snd r); do l <- hits sm f bits (snd v); Some ((doc_of (snd r), fst (fst v)) :: l)
        else hits sm f bits (snd r)
      else Some []
  end.

(* ---------- queries and weights *)
Inductive leaf := LTerm (docs : option (list (Z * Z))) (norm : Z -> Qc) | LAll (max_doc : Z) (deleted : Z -> bool) | LBits (bits : list Z).
Inductive rquery := RLeaf (boost idf : Qc) (l : leaf) | RBool (boost : Qc) (no_coord : bool) (cs : list (occur * rquery)).
Inductive weight := WLeaf (boost idf qweight qnorm value : Qc) (l : leaf) | WBool (boost : Qc) (no_coord : bool) (cs : list (occur * weight)).
(* maw_new and csw_new set idf to 1 *)
Definition idf_of (idf : Qc) (l : leaf) : Qc := match l with LTerm _ _ => idf | _ => 1%Qc end.
(* search.c 240-244 w_sum_of_squared_weights, q_boolean.c 1105-1122 bw_sum_of_squared_weights *)
Fixpoint sum_sq (w : weight) : Qc * weight :=
  match w with
  | WLeaf b i _ qn v l => let qw := (i * b)%Qc in ((qw * qw)%Qc, WLeaf b i qw qn v l)
  | WBool b nc cs =>
      let r := map (fun c : occur * weight => match fst c with MustNot => (0%Qc, c) | o => (fst (sum_sq (snd c)), (o, snd (sum_sq (snd c)))) end) cs in
      ((fold_right Qcplus 0 (map fst r) * (b * b))%Qc, WBool b nc (map snd r))
  end.
(* search.c 246-251 w_normalize, q_boolean.c 1124-1138 bw_normalize *)
Fixpoint normalize (f : Qc) (w : weight) : weight :=
  match w with
  | WLeaf b i qw _ _ l => WLeaf b i (qw * f)%Qc f (qw * f * i)%Qc l
  | WBool b nc cs => WBool b nc (map (fun c : occur * weight => match fst c with MustNot => c | o => (o, normalize (f * b)%Qc (snd c)) end) cs)
  end.
(* search.c 355-366 q_weight; 1241-1263 bw_new asks q_weight for every clause *)
Definition finish (sm : sim) (w : weight) : weight := let r := sum_sq w in normalize (query_norm sm (fst r)) (snd r).
Fixpoint q_weight (sm : sim) (q : rquery) : weight :=
  match q with
  | RLeaf b i l => finish sm (WLeaf b (idf_of i l) 0%Qc 0%Qc 0%Qc l)
  | RBool b nc cs => finish sm (WBool b nc (map (fun c : occur * rquery => (fst c, q_weight sm (snd c))) cs))
  end.
(* 1140-1160 bw_scorer *)
Fixpoint add_all (nc : bool) (l : list (occur * option sc)) (req opt pro : list sc) : option sc :=
  match l with
  | [] => Some (Bsc nc 0 None req opt pro)
  | (o, Some s) :: t => match o with Must => add_all nc t (req ++ [s]) opt pro | Should => add_all nc t req (opt ++ [s]) pro | MustNot => add_all nc t req opt (pro ++ [s]) end
  | (o, None) :: t => match o with Must => None | _ => add_all nc t req opt pro end
  end.
Fixpoint scorer_of (w : weight) : option sc :=
  match w with
  | WLeaf _ _ _ _ v (LTerm (Some l) nm) => Some (Term v nm 0 0 [] l)
  | WLeaf _ _ _ _ v (LTerm None _) => None
  | WLeaf _ _ _ _ v (LAll mx del) => Some (All v (-1) mx del)
  | WLeaf _ _ _ _ v (LBits l) => Some (Bits v 0 l)
  | WBool _ nc cs => add_all nc (map (fun c : occur * weight => (fst c, scorer_of (snd c))) cs) [] [] []
  end.

(* ---------- the values of explanations *)
(* q_term.c 94-108 tsc_explain: the frequency if skipping finds the document *)
Definition expl_freq (l : list (Z * Z)) (d : Z) : Z := match fromp d l with x :: _ => if fst x =? d then snd x else 0 | [] => 0 end.
Definition positive (x : Qc) : bool := match Qccompare 0 x with Lt => true | _ => false end.
(* bw_explain's loop: Some (sum, coord, max_coord), None: "match prohibited" or "match required" *)
Fixpoint expl_sum (l : list (occur * Qc)) (sum : Qc) (n mx : nat) : option (Qc * nat * nat) :=
  match l with
  | [] => Some (sum, n, mx)
  | (o, v) :: t =>
      let mx' := match o with MustNot => mx | _ => S mx end in
      if positive v then match o with MustNot => None | _ => expl_sum t (sum + v)%Qc (S n) mx' end
      else match o with Must => None | _ => expl_sum t sum n mx' end
  end.
Fixpoint explain (sm : sim) (w : weight) (d : Z) : Qc :=
  match w with
  | WLeaf b i _ qn _ (LTerm (Some l) nm) => (b * i * qn * (tf sm (expl_freq l d) * i * nm d))%Qc   (* also when the query's part is 1 *)
  | WLeaf b i _ qn _ (LTerm None nm) => 0%Qc                                                       (* q_multi_term.c 442-449: tf is 0 *)
  | WLeaf _ _ _ _ v (LAll _ _) | WLeaf _ _ _ _ v (LBits _) => v                                   (* whether or not the document matches *)
  | WBool _ nc cs =>
      match expl_sum (map (fun c : occur * weight => (fst c, explain sm (snd c) d)) cs) 0%Qc 0 0 with
      | None => 0%Qc
      | Some (s, n, mx) => (s * (if nc then 1 else coord sm n mx))%Qc
      end
  end.
