(* Model of a search from the query to the documents: c/src/search.c isea_rewrite (1217-1229), q_weight (355-366), isea_search_w (1027-1099, the
   documents it visits), c/src/q_boolean.c bq_rewrite (1339-1401), bw_new (1242-1275), bw_scorer (1140-1160), c/src/q_range.c rq_rewrite
   (498-509), c/src/q_phrase.c phq_rewrite (1069-1096), c/src/q_const_score.c cssc_new (66-79), c/src/q_match_all.c, with the rewritings of
   Expand_Model and Fuzzy_Model, the scorers of Tsc_Model, Tpe_Model, Leaf_Model and Bool_Model and the filter of Range_Model.
   Left out: boosts and scores (so the optional clauses beside required ones are never moved, Bool_Model), spans, filters beside
   the query, the lookups by which weights count documents (they only leave the TermInfosReader in another state, and it may be in any here).
   None: undefined behaviour, an exception, or not enough fuel. *)
From Verif Require Import Util BitVector_Model Strcmp Dict_Model Query_Model Expand_Model Fuzzy_Model Range_Model Tsc_Model Tpe_Model Leaf_Model Bool_Model Filter_Model.
Open Scope Z_scope.

Inductive uq :=
| UTerm (f t : list Z)
| UPrefix (f pre : list Z) (max : nat)
| UWild (f pat : list Z) (max : nat)
| UFuzzy (f t : list Z) (pre_len : nat) (min : Z) (max : nat)
| URange (f : list Z) (g : range)
| UAll
| UBool (cs : list (occur * uq))
| UMulti (f : list Z) (m : mtq)                    (* MultiTermQuery *)
| UBits (f : list Z) (g : range)                   (* ConstantScoreQuery on a RangeFilter *)
| UPhrase (f : list Z) (slop : Z) (ps : list (Z * list (list Z))).   (* PhraseQuery: positions with their terms *)
Definition MAX_CLAUSES : nat := 1024.
Fixpoint oall {A} (l : list (option A)) : option (list A) := match l with [] => Some [] | x :: t => do a <- x; do r <- oall t; Some (a :: r) end.
(* search.h MULTI_TERM_QUERY_MAX_TERMS *)
Definition MULTI_MAX : nat := 256.
Fixpoint add_terms (q : mtq) (ts : list (list Z)) : option mtq := match ts with [] => Some q | t :: l => do q' <- add_term q t; add_terms q' l end.
Definition of_rq (f : list Z) (q : rq) : uq := match q with QTermQ t _ => UTerm f t | QMultiQ m => UMulti f m end.

Section LOOK.
  Variables (calc : Z -> Z -> Z) (sim : fscore -> Z).   (* Fuzzy_Model: the distance permitted for a similarity and a length; the similarity *)
  Variable srt : list (list Z) -> list nat.             (* qsort (Tpe_Model) *)
  Variables (r : prdr) (del : Z -> bool) (mx : Z).      (* reader, deleted documents, max_doc *)
  Variable fld : list Z -> option Z.                    (* fis_get_field_num *)
  Variable fu : nat.                                    (* fuel of the loops over terms and postings *)

  (* query->rewrite: the query, and whether it is another one *)
  Fixpoint rewrite1 (q : uq) : option (uq * bool) :=
    match q with
    | UPrefix f pre max => do x <- prq_rewrite fu (rdr_of r) (fld f) pre max one; Some (of_rq f x, true)
    | UWild f pat max => do x <- wcq_rewrite fu (rdr_of r) (fld f) pat max one; Some (of_rq f x, true)
    | UFuzzy f t pl min max =>
        match fld f with
        | None => Some (UBool [], true)                (* q_fuzzy.c 187-189: bq_new(true) *)
        | Some n => do x <- fuzq_rewrite (calc min) sim fu (rdr_of r) (Some n) t pl min max; Some (of_rq f x, true)
        end
    | URange f g => Some (UBits f g, true)
    (* q_phrase.c 1073-1091 *)
    | UPhrase f _ [(_, [x])] => Some (UTerm f x, true)
    | UPhrase f _ [(_, ts)] => do m <- add_terms (mtq_new MULTI_MAX 0) ts; Some (UMulti f m, true)
    | UBool cs =>
        (* 1345-1361 *)
        match cs with
        | [(Must, c)] | [(Should, c)] => do x <- rewrite1 c; Some (fst x, true)
        | _ =>
            (* 1363-1389: the clauses that change are changed in a copy of the query *)
            do xs <- oall (map (fun c : occur * uq => do x <- rewrite1 (snd c); Some (fst c, x)) cs);
            let cs' := map (fun y : occur * (uq * bool) => (fst y, fst (snd y))) xs in
            let changed := existsb (fun y : occur * (uq * bool) => snd (snd y)) xs in
            (* 1391-1394: only prohibited clauses; bq_add_query_nr (1602-1614) raises *)
            if negb (length cs =? 0)%nat && forallb (fun c : occur * uq => is_not (fst c)) cs then
              (if (length cs <? MAX_CLAUSES)%nat then Some (UBool (cs' ++ [(Must, UAll)]), changed) else None)
            else Some (UBool cs', changed)
        end
    | _ => Some (q, false)
    end.
  (* 1217-1229 isea_rewrite *)
  Fixpoint isea_rewrite (n : nat) (q : uq) : option uq :=
    match n with O => None | S k => do x <- rewrite1 q; if snd x then isea_rewrite k (fst x) else Some (fst x) end.
  (* 355-366 q_weight with bw_new: the query of every weight *)
  Fixpoint q_weight (n : nat) (q : uq) : option uq :=
    match n with
    | O => None
    | S k =>
        do w <- isea_rewrite k q;
        match w with
        | UBool cs => do ws <- oall (map (fun c : occur * uq => do x <- q_weight k (snd c); Some (fst c, x)) cs); Some (UBool ws)
        | UPrefix _ _ _ | UWild _ _ _ | UFuzzy _ _ _ _ _ | URange _ _ => None   (* q_create_weight_unsup *)
        | _ => Some w
        end
    end.
  (* weight->scorer; t: the TermInfosReader *)
  Fixpoint scorer (w : uq) (t : tir) : option (option sc * tir) :=
    match w with
    | UTerm f x =>
        do de <- term_docs r;
        match fld f with
        | Some n => do y <- pe_seek r t n x de; Some (Some (Leaf (LTerm r del (rb_new TSC_READ 0 (fst y)))), snd y)
        | None => Some (Some (Leaf (LTerm r del (rb_new TSC_READ 0 de))), t)
        end
    | UMulti f m => do l <- query_terms m; do s <- multi_tw_scorer r (fld f) (map fst l); Some (option_map (fun x : mts * list nat => Leaf (LMulti r del (fst x))) s, t)
    | UBits f g => do l <- rfilt_get_bv fu r del (fld f) g;
                   do v <- set_all (bv_new_capa (Z.to_nat mx)) (map Z.to_nat (rev l)); Some (Some (Leaf (LBits 0 v)), t)
    | UPhrase f slop ps => do x <- phw_scorer r del t (fld f) slop ps; Some (option_map (fun s => Leaf (LPhrase r del srt s)) (fst x), snd x)
    | UAll => Some (Some (All (-1) mx del), t)
    | UBool ws =>
        (* 1140-1160: no scorer if a required clause has none; the clauses behind it are not looked at *)
        do x <- (fix go (l : list (occur * uq)) (t : tir) : option (list (occur * option sc) * tir) :=
           match l with
           | [] => Some ([], t)
           | (o, w) :: l' =>
               do y <- scorer w t;
               match o, fst y with
               | Must, None => Some ([(Must, None)], snd y)
               | _, _ => do z <- go l' (snd y); Some ((o, fst y) :: fst z, snd z)
               end
           end) ws t;
        Some (add_all (fst x) [] [] [], snd x)
    | _ => None
    end.
  Definition num_docs : nat := length (filter (fun k => negb (del (Z.of_nat k))) (seq 0 (Z.to_nat mx))).
  (* 1027-1099: the documents in the order in which they are visited; fv: fuel of the rewriting and of the scorer *)
  Definition look (fv : nat) (q : uq) (t : tir) : option (list Z * tir) :=
    do w <- q_weight fv q;
    do x <- scorer w t;
    match fst x with
    | None => Some ([], snd x)
    | Some s => if (num_docs =? 0)%nat then Some ([], snd x) else do l <- docs_of fv s; Some (l, snd x)
    end.
End LOOK.

(* a reader searched again and again; it keeps its TermInfosReader *)
Fixpoint looks calc sim srt r del mx fld fu fv (qs : list uq) (t : tir) : option (list (list Z)) :=
  match qs with
  | [] => Some []
  | q :: qs' => do x <- look calc sim srt r del mx fld fu fv q t; do l <- looks calc sim srt r del mx fld fu fv qs' (snd x); Some (fst x :: l)
  end.

(* ---------- what becomes of the query that is rewritten *)
(* query->rewrite returns another query (the bool of rewrite1) *)
Fixpoint changes (q : uq) : bool :=
  match q with
  | UPrefix _ _ _ | UWild _ _ _ | UFuzzy _ _ _ _ _ | URange _ _ => true
  | UPhrase _ _ [_] => true
  | UBool [(Must, _)] | UBool [(Should, _)] => true
  | UBool cs => existsb (fun c : occur * uq => changes (snd c)) cs
  | _ => false
  end.
(* the object itself afterwards: q_boolean.c 1391-1394 adds the clause to self, which is the query of the caller unless a clause made a copy
   necessary. Rewriting what rewriting returned finds no more such clauses in shared objects: they have a required one by now. *)
Fixpoint kept (q : uq) : uq :=
  match q with
  | UBool cs =>
      let cs' := map (fun c : occur * uq => (fst c, kept (snd c))) cs in
      if negb (length cs =? 0)%nat && forallb (fun c : occur * uq => is_not (fst c)) cs && negb (existsb (fun c : occur * uq => changes (snd c)) cs)
      then UBool (cs' ++ [(Must, UAll)]) else UBool cs'
  | _ => q
  end.
(* 1602-1614 bq_add_query *)
Definition bq_add (q : uq) (o : occur) (c : uq) : option uq := match q with UBool cs => if (length cs <? MAX_CLAUSES)%nat then Some (UBool (cs ++ [(o, c)])) else None | _ => None end.
