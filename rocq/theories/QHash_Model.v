(* Model of the hash values and the equality of queries: c/src/search.c q_hash, q_eq (422-433), c/src/filter.c filt_hash, filt_eq, qfilt_hash, qfilt_eq (70-131) and the
   hash and eq functions of every type of query: q_term.c 292-301, q_multi_term.c 571-602, q_boolean.c 1301-1309 and 1515-1543, q_phrase.c 1097-1137,
   q_const_score.c 133-141, q_match_all.c 124-134, q_range.c 79-99, 278-286 and 511-519, q_wildcard.c 139-148, q_fuzzy.c 238-254, q_prefix.c 70-79,
   q_span.c 22-30, 1562-1570, 1655-1677, 1761-1773, 1904-1935, 2087-2121, 2238-2251 and 2363-2372.
   A query is a boost, the data of its own struct and its sub-queries in order (the clauses of a boolean query with their occur values).  Symbols are interned strings:
   comparing the pointers compares the strings, and sym_hash is str_hash of the string.  A float is the integer of its 32 bits.
   None is undefined behaviour: the call of the NULL hash or eq function of a FilteredQuery (q_filtered_query.c never sets them), or the reading of a struct of
   another type.  Unsigned long has 64 bits.  Left out: filters written in Ruby. *)
From Verif Require Import Util Strcmp.
Open Scope Z_scope.

Definition W : Z := 2 ^ 64.
Definition ul (x : Z) : Z := x mod W.                              (* conversion to unsigned long *)
(* hash.c 24-34 *)
Definition str_hash (s : list Z) : Z := fold_left (fun h b => ul (37 * h + b)) s 0.
Definition sym_hash (s : list Z) : Z := str_hash s.
Definition opt_hash (s : option (list Z)) : Z := match s with Some t => str_hash t | None => 0 end.
Definition shl (x n : Z) : Z := ul (Z.shiftl x n).
Definition b2z (b : bool) : Z := if b then 1 else 0.
(* helper.c 14-19: the bits of a float as an i32, converted to unsigned long with its sign *)
Definition float2int (f : Z) : Z := ul (if f <? 2 ^ 31 then f else f - 2 ^ 32).
(* the comparison of two floats: NaN equals nothing, the two zeros are equal *)
Definition nan (f : Z) : bool := 255 * 2 ^ 23 <? f mod 2 ^ 31.
Definition zerof (f : Z) : bool := f mod 2 ^ 31 =? 0.
Definition feq (f g : Z) : bool := negb (nan f) && negb (nan g) && ((f =? g) || (zerof f && zerof g)).

Record range := { g_field : list Z; g_lower : option (list Z); g_upper : option (list Z); g_il : bool; g_iu : bool }.
Inductive filt := FRange (typed : bool) (r : range) | FQuery.      (* the query of a QueryFilter is the sub-query *)
Inductive kind :=
| KTerm (field term : list Z)
| KMulti (field : list Z) (heap : list (list Z * Z))               (* the cells of boosted_terms from the last to the first *)
| KBool (coord_disabled : bool) (max_clause : Z)
| KPhrase (field : list Z) (slop : Z) (ps : list (Z * list (list Z)))
| KConst (f : filt)
| KFiltered
| KAll
| KRange (typed : bool) (r : range)
| KWild (field pattern : list Z) (max_terms : Z)
| KFuzzy (field term : list Z) (min_sim pre_len max_terms : Z)
| KPrefix (field prefix : list Z) (max_terms : Z)
| KSpanTerm (field : option (list Z)) (term : list Z)
| KSpanMulti (field : option (list Z)) (terms : list (list Z))
| KSpanPrefix (field prefix : list Z) (max_terms : Z)
| KSpanFirst (field : option (list Z)) (last : Z)
| KSpanOr (field : option (list Z))
| KSpanNot (field : option (list Z))
| KSpanNear (field : option (list Z)) (slop : Z) (in_order : bool).
Inductive qry := Qn (boost : Z) (k : kind) (subs : list (Z * qry)).
Definition boost (q : qry) : Z := let (b, _, _) := q in b.
Definition kd (q : qry) : kind := let (_, k, _) := q in k.
(* search.h 193-214 *)
Definition ty (k : kind) : Z :=
  match k with
  | KTerm _ _ => 0 | KMulti _ _ => 1 | KBool _ _ => 2 | KPhrase _ _ _ => 3 | KConst _ => 4 | KFiltered => 5 | KAll => 6
  | KRange false _ => 7 | KRange true _ => 8 | KWild _ _ _ => 9 | KFuzzy _ _ _ _ _ => 10 | KPrefix _ _ _ => 11
  | KSpanTerm _ _ => 12 | KSpanMulti _ _ => 13 | KSpanPrefix _ _ _ => 14 | KSpanFirst _ _ => 15 | KSpanOr _ => 16 | KSpanNot _ => 17 | KSpanNear _ _ _ => 18
  end.

(* ----- hashing ----- *)
(* q_range.c 79-85 *)
Definition range_hash (r : range) : Z :=
  Z.lor (Z.lor (b2z (g_il r)) (Z.shiftl (b2z (g_iu r)) 1)) (shl (Z.lxor (Z.lxor (sym_hash (g_field r)) (opt_hash (g_lower r))) (opt_hash (g_upper r))) 2).
Definition xors (h : Z) (l : list Z) : Z := fold_left Z.lxor l h.
(* q_phrase.c 1097-1110 *)
Definition phq_hash (field : list Z) (slop : Z) (ps : list (Z * list (list Z))) : Z :=
  Z.lxor (fold_left (fun h (p : Z * list (list Z)) => fold_left (fun h t => Z.lxor (shl h 1) (Z.lxor (str_hash t) (ul (fst p)))) (rev (snd p)) h) ps (sym_hash field)) (ul slop).
(* "RangeFilter" and "QueryFilter": both range filters are made by filt_new(RangeFilter) (q_range.c 292 and 429) *)
Definition filt_name (f : filt) : list Z :=
  match f with FRange _ _ => [82; 97; 110; 103; 101; 70; 105; 108; 116; 101; 114] | FQuery => [81; 117; 101; 114; 121; 70; 105; 108; 116; 101; 114] end.
(* how the hash values of the sub-queries are used: bc_hash, qfilt_hash and the span queries *)
Inductive use := UClause | UQuery | URaw.
Definition use_of (k : kind) : use := match k with KBool _ _ => UClause | KConst _ => UQuery | _ => URaw end.
Definition tag_hash (k : kind) (raw : Z) : Z := Z.lor (shl raw 5) (ty k).                                  (* search.c 424 *)
Definition sub_hash (u : use) (occ : Z) (k : kind) (raw : Z) : Z :=
  match u with
  | UClause => Z.lor (shl (tag_hash k raw) 2) occ                                                        (* q_boolean.c 1303 *)
  | UQuery => tag_hash k raw
  | URaw => raw
  end.
(* self->hash, given the hash values of the sub-queries *)
Definition own_hash (k : kind) (hs : list Z) : option Z :=
  match k with
  | KTerm f t => Some (Z.lxor (str_hash t) (sym_hash f))
  | KMulti f heap => Some (xors (sym_hash f) (map (fun c : list Z * Z => Z.lxor (str_hash (fst c)) (float2int (snd c))) heap))
  | KBool cd _ => Some (Z.lor (shl (xors 0 hs) 1) (b2z cd))
  | KPhrase f slop ps => Some (phq_hash f slop ps)
  | KConst (FRange t r) => Some (Z.lxor (sym_hash (filt_name (FRange t r))) (range_hash r))
  | KConst FQuery => match hs with [h] => Some (Z.lxor (sym_hash (filt_name FQuery)) h) | _ => None end
  | KFiltered => None
  | KAll => Some 0
  | KRange _ r => Some (range_hash r)
  | KWild f p _ => Some (Z.lxor (sym_hash f) (str_hash p))
  | KFuzzy f t ms pl _ => Some (Z.lxor (Z.lxor (Z.lxor (str_hash t) (sym_hash f)) (float2int ms)) (ul pl))
  | KPrefix f p _ => Some (Z.lxor (sym_hash f) (str_hash p))
  | KSpanTerm f t => Some (Z.lxor (opt_hash f) (str_hash t))
  | KSpanMulti f ts => Some (xors (opt_hash f) (map str_hash ts))
  | KSpanPrefix f p _ => Some (Z.lxor (sym_hash f) (str_hash p))
  | KSpanFirst f e => match hs with [h] => Some (Z.lxor (Z.lxor (opt_hash f) h) (ul e)) | _ => None end
  | KSpanOr f => Some (xors (opt_hash f) hs)
  | KSpanNot f => match hs with [h1; h2] => Some (Z.lxor (Z.lxor (opt_hash f) h1) h2) | _ => None end
  | KSpanNear f slop io => Some (Z.lor (shl (Z.lxor (xors (opt_hash f) hs) (ul slop)) 1) (b2z io))
  end.
Fixpoint seq_o {A} (l : list (option A)) : option (list A) :=
  match l with [] => Some [] | o :: l' => do a <- o; do r <- seq_o l'; Some (a :: r) end.
Fixpoint raw_hash (q : qry) : option Z :=
  let (_, k, subs) := q in
  do hs <- seq_o (map (fun c : Z * qry => do h <- raw_hash (snd c); Some (sub_hash (use_of k) (fst c) (kd (snd c)) h)) subs);
  own_hash k hs.
Definition q_hash (q : qry) : option Z := do h <- raw_hash q; Some (tag_hash (kd q) h).

(* ----- equality ----- *)
Fixpoint all_eqb {A} (f : A -> A -> bool) (l m : list A) : bool :=
  match l, m with [], [] => true | a :: l', b :: m' => f a b && all_eqb f l' m' | _, _ => false end.
Definition opt_eqb (a b : option (list Z)) : bool := match a, b with Some s, Some t => seqb s t | None, None => true | _, _ => false end.
(* q_range.c 92-99 *)
Definition range_eq (r o : range) : bool :=
  seqb (g_field r) (g_field o) && opt_eqb (g_lower r) (g_lower o) && opt_eqb (g_upper r) (g_upper o) && Bool.eqb (g_il r) (g_il o) && Bool.eqb (g_iu r) (g_iu o).
(* self->eq before the sub-queries; both of the same type.  None: NULL function *)
Definition own_eq (k k' : kind) : option bool :=
  match k, k' with
  | KTerm f t, KTerm f' t' => Some (seqb t t' && seqb f f')
  | KMulti f h, KMulti f' h' => Some (seqb f f' && all_eqb (fun c c' : list Z * Z => seqb (fst c) (fst c') && feq (snd c) (snd c')) h h')
  | KBool cd m, KBool cd' m' => Some (Bool.eqb cd cd' && (m =? m))                                      (* 1531 compares the limit with itself *)
  | KPhrase f s ps, KPhrase f' s' ps' =>
      Some ((s =? s') && seqb f f' && all_eqb (fun p p' : Z * list (list Z) => (fst p =? fst p') && all_eqb seqb (snd p) (snd p')) ps ps')
  | KConst (FRange t r), KConst (FRange t' r') => Some (range_eq r r')
  | KConst FQuery, KConst FQuery => Some true
  | KConst _, KConst _ => Some false                                                                    (* other name *)
  | KFiltered, KFiltered => None
  | KAll, KAll => Some true
  | KRange _ r, KRange _ r' => Some (range_eq r r')
  | KWild f p _, KWild f' p' _ => Some (seqb p p' && seqb f f')
  | KFuzzy f t ms pl _, KFuzzy f' t' ms' pl' _ => Some (seqb t t' && seqb f f' && (pl =? pl') && feq ms ms')
  | KPrefix f p _, KPrefix f' p' _ => Some (seqb p p' && seqb f f')
  | KSpanTerm f t, KSpanTerm f' t' => Some (opt_eqb f f' && seqb t t')
  | KSpanMulti f ts, KSpanMulti f' ts' => Some (opt_eqb f f' && all_eqb seqb ts ts')
  | KSpanPrefix f p _, KSpanPrefix f' p' _ => Some (seqb p p' && seqb f f')
  | KSpanFirst f e, KSpanFirst f' e' => Some (opt_eqb f f')
  | KSpanOr f, KSpanOr f' => Some (opt_eqb f f')
  | KSpanNot f, KSpanNot f' => Some (opt_eqb f f')
  | KSpanNear f s io, KSpanNear f' s' io' => Some (opt_eqb f f' && (s =? s') && Bool.eqb io io')
  | _, _ => None
  end.
(* self->eq after the sub-queries (q_span.c 1772) *)
Definition own_eq_after (k k' : kind) : bool := match k, k' with KSpanFirst _ e, KSpanFirst _ e' => e =? e' | _, _ => true end.
Definition oand (a : option bool) (b : option bool) : option bool := match a with Some true => b | _ => a end.
Section E.
  (* the comparisons of the addresses of two queries and of two filters *)
  Variable same : qry -> qry -> bool.
  Variable fsame : qry -> qry -> bool.               (* of the filters of two constant score queries *)
  (* search.c 427-433, given self->eq *)
  Definition q_eq_of (e : qry -> qry -> option bool) (a b : qry) : option bool :=
    if same a b then Some true else if (ty (kd a) =? ty (kd b)) && feq (boost a) (boost b) then e a b else Some false.
  Definition sub_eq (u : use) (e : qry -> qry -> option bool) (c c' : Z * qry) : option bool :=
    match u with
    | UClause => if fst c =? fst c' then q_eq_of e (snd c) (snd c') else Some false                      (* q_boolean.c 1308 *)
    | UQuery => q_eq_of e (snd c) (snd c')
    | URaw => e (snd c) (snd c')                                                                        (* the type is not looked at *)
    end.
  Fixpoint raw_eq (a b : qry) {struct a} : option bool :=
    let (ba, k, subs) := a in let (_, k', subs') := b in
    if negb (ty k =? ty k') then None else
    if match k with KConst _ => fsame (Qn ba k subs) b | _ => false end then Some true else
    oand (own_eq k k')
         (if negb (Nat.eqb (length subs) (length subs')) then Some false else      (* clause_cnt, c_cnt *)
          oand ((fix go (l m : list (Z * qry)) : option bool :=
                   match l, m with
                   | [], [] => Some true
                   | c :: l', c' :: m' => oand (sub_eq (use_of k) raw_eq c c') (go l' m')
                   | _, _ => Some false
                   end) subs subs')
               (Some (own_eq_after k k'))).
  Definition q_eq (a b : qry) : option bool := q_eq_of raw_eq a b.
End E.
