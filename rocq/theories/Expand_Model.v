(* Model of queries that expand into terms: wildcard queries (c/src/q_wildcard.c:34-127), prefix queries (c/src/q_prefix.c:40-70) and the
   MultiTermQuery they build (c/src/q_multi_term.c:18-48, 624-673), on the term enumerators of Dict_Model and Mte_Model.
   A boost is a float that is not negative, given by its bits: the order of such floats is that of their bits.  Not modelled: memory,
   the error of multi_tq_new_conf for max_terms = 0. *)
From Verif Require Import Util Strcmp Dict_Model PQueue_Model Multi_Model Mte_Model.
Open Scope Z_scope.

(* '?' and '*' *)
Definition WILD_CHAR : Z := 63.
Definition WILD_STRING : Z := 42.
Definition one : Z := 1065353216.  (* 1.0 *)
Fixpoint tails {A} (l : list A) : list (list A) := l :: match l with [] => [] | _ :: t => tails t end.

(* q_wildcard.c:34-79 wc_match; the inner loop runs from the end of the text back to t *)
Fixpoint wc_match (p t : list Z) {struct p} : bool :=
  match t with
  | [] => forallb (fun x => x =? WILD_STRING) p
  | c :: t' =>
      match p with
      | [] => false
      | x :: p' =>
          if x =? WILD_CHAR then wc_match p' t'
          else if x =? WILD_STRING then existsb (wc_match p') (rev (tails t))
          else if x =? c then wc_match p' t' else false
      end
  end.

(* ---------- MultiTermQuery *)
(* q_multi_term.c:25-33 boosted_term_less_than *)
Definition bt_lt (a b : list Z * Z) : bool := if snd a =? snd b then sltb (fst a) (fst b) else snd a <? snd b.
Record mtq := mkMtq { b_terms : pq (list Z * Z); b_min : Z; b_boost : Z }.
(* q_multi_term.c:624-651 multi_tq_new_conf; the boost of a new query is 1.0 *)
Definition mtq_new (max : nat) (min : Z) : mtq := mkMtq (pq_new _ max) min one.
(* q_multi_term.c:658-668 multi_tq_add_term_boost *)
Definition add_term_boost (q : mtq) (term : list Z) (boost : Z) : option mtq :=
  if (b_min q <? boost) && (match term with [] => false | _ => true end) then
    do r <- pq_insert _ bt_lt (b_terms q) (term, boost);
    let h := snd r in
    if (pq_size h =? pq_capa h)%nat then
      do t <- pq_top _ h; match t with Some x => Some (mkMtq h (snd x) (b_boost q)) | None => None end
    else Some (mkMtq h (b_min q) (b_boost q))
  else Some q.
(* 670-673 multi_tq_add_term *)
Definition add_term (q : mtq) (term : list Z) : option mtq := add_term_boost q term one.

(* ---------- readers of one or several segments *)
Inductive rdr := ROne (s : src) | RMany (mp : option (list (list Z))) (srcs : list src).
Inductive tenum := EOne (e : ste) | EMany (m : mte).
(* index.c:4526-4533 sr_terms_from, 4830-4833 mr_terms_from; with curr_term *)
Definition terms_from (r : rdr) (f : Z) (t : list Z) : option (list Z * tenum) :=
  match r with
  | ROne s => do x <- ste_scan_to (fst s) (snd s) (ste_set_field (fst s) (snd s) ste_new f) t; Some (e_term (snd x), EOne (snd x))
  | RMany mp srcs => do x <- mte_new srcs mp f (Some t); Some (q_term (snd x), EMany (snd x))
  end.
Definition te_next (r : rdr) (e : tenum) : option (option (list Z) * tenum) :=
  match r, e with
  | ROne s, EOne e => do x <- ste_next (s_skip (snd s)) e; Some (fst x, EOne (snd x))
  | RMany mp srcs, EMany m => do x <- mte_next srcs m; Some (fst x, EMany (snd x))
  | _, _ => None
  end.
(* strncmp(term, prefix, strlen(prefix)) == 0 *)
Fixpoint starts_with (p t : list Z) : bool :=
  match p, t with [], _ => true | x :: p', y :: t' => (x =? y) && starts_with p' t' | _ :: _, [] => false end.

(* ---------- q_wildcard.c:81-127 wcq_rewrite *)
Fixpoint split_wild (p : list Z) : list Z * list Z :=
  match p with
  | [] => ([], [])
  | x :: t => if (x =? WILD_CHAR) || (x =? WILD_STRING) then ([], p) else let '(a, b) := split_wild t in (x :: a, b)
  end.
Fixpoint wc_loop (fuel : nat) (r : rdr) (pre pat term : list Z) (e : tenum) (q : mtq) : option mtq :=
  match fuel with
  | O => None
  | S k =>
      if (match pre with [] => false | _ => true end) && negb (starts_with pre term) then Some q
      else
        do q1 <- (if wc_match pat (skipn (length pre) term) then add_term q term else Some q);
        do x <- te_next r e;
        match fst x with None => Some q1 | Some t => wc_loop k r pre pat t (snd x) q1 end
  end.
(* the rewritten query: a term query with its boost, or a MultiTermQuery *)
Inductive rq := QTermQ (t : list Z) (boost : Z) | QMultiQ (q : mtq).
(* field is the number of the field, None if there is none; prefix[MAX_WORD_SIZE] overflows from 255 bytes on *)
Definition wcq_rewrite (fuel : nat) (r : rdr) (field : option Z) (pattern : list Z) (max : nat) (boost : Z) : option rq :=
  match split_wild pattern with
  | (_, []) => Some (QTermQ pattern boost)
  | (pre, pat) =>
      match field with
      | None => Some (QMultiQ (mtq_new max 0))
      | Some f =>
          if (length pre <? 255)%nat then
            do x <- terms_from r f pre;
            do q <- wc_loop fuel r pre pat (fst x) (snd x) (mtq_new max 0);
            Some (QMultiQ q)
          else None
      end
  end.

(* ---------- q_prefix.c:40-70 prq_rewrite *)
Fixpoint pr_loop (fuel : nat) (r : rdr) (pre term : list Z) (e : tenum) (q : mtq) : option mtq :=
  match fuel with
  | O => None
  | S k =>
      if starts_with pre term then
        do q1 <- add_term q term;
        do x <- te_next r e;
        match fst x with None => Some q1 | Some t => pr_loop k r pre t (snd x) q1 end
      else Some q
  end.
Definition prq_rewrite (fuel : nat) (r : rdr) (field : option Z) (pre : list Z) (max : nat) (boost : Z) : option rq :=
  let q := mkMtq (b_terms (mtq_new max 0)) 0 boost in
  match field with
  | None => Some (QMultiQ q)
  | Some f => do x <- terms_from r f pre; do q1 <- pr_loop fuel r pre (fst x) (snd x) q; Some (QMultiQ q1)
  end.
