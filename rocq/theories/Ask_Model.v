(* The query objects that the parser builds (QpAct_Model.qry) as the searcher takes them (Look_Model.uq): c/src/q_parser.y 640-1080 calls
   the constructors of c/src/q_term.c, q_phrase.c, q_fuzzy.c, q_wildcard.c, q_prefix.c, q_range.c, q_multi_term.c, q_boolean.c and q_match_all.c.
   Boosts, coord_disabled and the clause limit of a BooleanQuery are dropped: Look_Model has no scores, and of the queries the parser builds
   only those of bq_new (limit 1024, Look_Model) can be all prohibited, the one case in which rewriting adds a clause.
   None: a TypedRangeQuery (not in Look_Model). *)
From Verif Require Import Util Query_Model Expand_Model Range_Model Look_Model QpAct_Model.
Open Scope Z_scope.

Section UQ.
  Variable pl : nat.   (* qp_default_fuzzy_pre_len, q_fuzzy.c fuzq_new_conf *)
  Definition occur_uq (o : occ) : Query_Model.occur := match o with QpAct_Model.Should => Query_Model.Should | QpAct_Model.Must => Query_Model.Must | QpAct_Model.MustNot => Query_Model.MustNot end.
  Fixpoint to_uq (q : qry) : option uq := match q with Q _ n => node_uq n end
  with node_uq (n : qnode) : option uq :=
    match n with
    | NTerm f t => Some (UTerm f t)
    | NPhrase f slop ps => Some (UPhrase f slop ps)
    | NFuzzy f t sim max => Some (UFuzzy f t pl sim (Z.to_nat max))
    | NWild f p max => Some (UWild f p (Z.to_nat max))
    | NPrefix f p max => Some (UPrefix f p (Z.to_nat max))
    | NAll => Some UAll
    | NRange typed f a b il iu => if typed then None else Some (URange f (mkRange a b il iu))
    | NMulti f ts =>      (* q_parser.y 961-968: term_cnt, which is 2 at least and counts empty terms too *)
        do m <- add_terms (mtq_new (Nat.max 2 (length ts)) 0) ts; Some (UMulti f m)
    | NBool _ _ cs =>
        do l <- (fix go (l : list (occ * qry)) : option (list (Query_Model.occur * uq)) := match l with [] => Some [] | c :: r => do u <- to_uq (snd c); do t <- go r; Some ((occur_uq (fst c), u) :: t) end) cs;
        Some (UBool l)
    end.
End UQ.
