(* Model of searcher_search (c/src/search.c isea_search 1118-1132 with isea_search_w 1027-1115): the documents of a query (Look_Model) that pass a filter, the
   page of them that is asked for, by score or sorted by fields (Sort_Model, Search_Model).  Scores are a function of the document; a filter is a
   RangeFilter (q_range.c 218-277).  After an error the cache of a reader is taken to be what it was before the search. *)
From Verif Require Import Util Strcmp Dict_Model Token_Model Post_Model Multi_Model Mte_Model Mtde_Model Expand_Model Fuzzy_Model Range_Model Search_Model Sort_Model Query_Model Leaf_Model Bool_Model Look_Model.
Open Scope Z_scope.

Record request := mkReq { rq_query : uq; rq_score : Z -> Z; rq_filter : option (list Z * range); rq_first : Z; rq_num : Z; rq_sort : option (list sfield) }.
Section PAGE.
  Variables (calc : Z -> Z -> Z) (sim : fscore -> Z) (srt : list (list Z) -> list nat).
  Variables (scan_ld scan_g len_d len_f : list Z -> option Z) (coll : list Z -> list Z -> Z).
  Variables (r : prdr) (del : Z -> bool) (mx : Z) (fld : list Z -> option Z) (fu : nat).
  Definition live : Z := Z.of_nat (num_docs del mx).
  (* 1053-1057: None: no scorer, or no document *)
  Definition visit (fv : nat) (q : uq) (t : tir) : option (option (list Z) * tir) :=
    do w <- q_weight calc sim r fld fu fv q;
    do x <- scorer srt r del mx fld fu w t;
    match fst x with
    | None => Some (None, snd x)
    | Some s => if (num_docs del mx =? 0)%nat then Some (None, snd x) else do l <- docs_of fv s; Some (Some l, snd x)
    end.
  (* 1043-1045 filt_get_bv; a bit beyond the end is 0 *)
  Definition filter_bits (fv : nat) (o : option (list Z * range)) : option (option (Z -> bool)) :=
    match o with None => Some None | Some (f, g) => do bv <- rfilt_get_bv fv r del (fld f) g; Some (Some (fun d => existsb (Z.eqb d) bv)) end.
  Definition search (fv : nat) (q : request) (c : fcache) (t : tir) : option (outcome topdocs * fcache * tir) :=
    do bits <- filter_bits fv (rq_filter q);
    do x <- visit fv (rq_query q) t;
    let hits := option_map (map (fun d => mkHit d (rq_score q d))) (fst x) in
    match rq_sort q with
    | None => match isea_search_w coll (mkSub hits live bits None [] mx) (rq_first q) (rq_num q) false with
              | Found td => Some (Ok td, c, snd x) | Raises => Some (Raise, c, snd x) | Undefined => None end
    | Some sort => match search_sorted scan_ld scan_g len_d len_f r del mx live fld fv coll hits bits (rq_first q) (rq_num q) sort c with
                   | Ok (td, _, c') => Some (Ok td, c', snd x) | Raise => Some (Raise, c, snd x) | Undef => None end
    end.
  (* one search after the other on a reader *)
  Fixpoint searches (fv : nat) (qs : list request) (c : fcache) (t : tir) : option (list (outcome topdocs)) :=
    match qs with
    | [] => Some []
    | q :: qs' => do x <- search fv q c t; do l <- searches fv qs' (snd (fst x)) (snd x); Some (fst (fst x) :: l)
    end.
End PAGE.
