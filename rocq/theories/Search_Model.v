(* Model of the collection of hits, c/src/search.c: hit_lt (91-99), isea_search_w (1027-1114), msea_search_w (1663-1740), and of sorting,
   c/src/sort.c: the comparisons (115-310), fshq_lt (482-500), fshq_pq_pop_fd (599-633), fdshq_lt (649-710), with the arrays built by
   c/src/field_index.c (96-260).
   The queues of hits (hit_pq_insert and so on) are copies of priorityqueue.c with the comparison inlined: they are PQueue_Model with it.
   A float is given by its place in the order of the floats (NaN, which has none, is left out): scores are only compared, apart from the
   factor of a post filter, which is part of the post filter here.  A scorer is the list of its documents with their scores.
   Not modelled: SORT_TYPE_AUTO, memory, searchers composed of composed searchers. *)
From Verif Require Import Util Strcmp PQueue_Model PQueue_Spec.
Open Scope Z_scope.

Definition INT_MAX : Z := 2 ^ 31 - 1.
Record hit := mkHit { h_doc : Z; h_score : Z }.
(* 91-99 hit_lt *)
Definition hit_lt (a b : hit) : bool := if h_score a =? h_score b then h_doc b <? h_doc a else h_score a <? h_score b.

(* ---------- sort.c *)
Inductive stype := TScore | TDoc | TByte | TInteger | TFloat | TString.
(* a comparator: the index is an array of numbers or a StringIndex *)
Record comp := mkComp { c_type : stype; c_rev : bool; c_long : Z -> Z; c_str : Z -> option (list Z) }.
(* if (a > b) return 1; else if (a < b) return -1; else return 0 *)
Definition cmp3 (a b : Z) : Z := if b <? a then 1 else if a <? b then -1 else 0.
Section SORT.
  Variable coll : list Z -> list Z -> Z.  (* strcoll *)
  Definition str_cmp (s1 s2 : option (list Z)) : Z :=
    match s1, s2 with None, None => 0 | None, Some _ => 1 | Some _, None => -1 | Some a, Some b => coll a b end.
  Definition compare (c : comp) (a b : hit) : Z :=
    match c_type c with
    | TScore => cmp3 (h_score b) (h_score a)
    | TDoc => cmp3 (h_doc a) (h_doc b)
    | TByte | TInteger | TFloat => cmp3 (c_long c (h_doc a)) (c_long c (h_doc b))
    | TString => str_cmp (c_str c (h_doc a)) (c_str c (h_doc b))
    end.
  (* for (i = 0; i < c_cnt && diff == 0; i++) *)
  Fixpoint cmp_loop (cs : list comp) (diff : Z) (a b : hit) : Z :=
    match cs with
    | [] => diff
    | c :: t => if diff =? 0 then cmp_loop t (if c_rev c then compare c b a else compare c a b) a b else diff
    end.
  Definition fshq_lt (cs : list comp) (a b : hit) : bool :=
    let diff := cmp_loop cs 0 a b in if diff =? 0 then h_doc b <? h_doc a else 0 <? diff.

  (* FieldDoc: a hit with the values it is sorted by *)
  Inductive cval := VF (x : Z) | VL (x : Z) | VS (s : option (list Z)).
  Notation fdoc := (hit * list cval)%type.
  Definition get_val (c : comp) (a : hit) : cval :=
    match c_type c with
    | TScore => VF (h_score a)
    | TDoc => VL (h_doc a)
    | TByte | TInteger => VL (c_long c (h_doc a))
    | TFloat => VF (c_long c (h_doc a))
    | TString => VS (c_str c (h_doc a))
    end.
  Definition as_f (v : cval) : Z := match v with VF x => x | _ => 0 end.
  Definition as_l (v : cval) : Z := match v with VL x => x | _ => 0 end.
  Definition as_s (v : cval) : option (list Z) := match v with VS s => s | _ => None end.
  Definition fd_cmp (ty : stype) (a b : fdoc) (v w : cval) : Z :=
    match ty with
    | TScore => if as_f w <? as_f v then -1 else if as_f v <? as_f w then 1 else 0
    | TFloat => cmp3 (as_f v) (as_f w)
    | TDoc => cmp3 (h_doc (fst a)) (h_doc (fst b))
    | TInteger | TByte => cmp3 (as_l v) (as_l w)
    | TString => str_cmp (as_s v) (as_s w)
    end.
  (* the types and directions are those of the sort, the same in all documents *)
  Fixpoint fd_loop (ts : list (stype * bool)) (c : Z) (a b : fdoc) (v w : list cval) : Z :=
    match ts with
    | [] => c
    | (ty, rev) :: t => if c =? 0 then let d := fd_cmp ty a b (hd (VL 0) v) (hd (VL 0) w) in fd_loop t (if rev then - d else d) a b (tl v) (tl w) else c
    end.
  Definition fdshq_lt (ts : list (stype * bool)) (a b : fdoc) : bool :=
    let c := fd_loop ts 0 a b (snd a) (snd b) in if c =? 0 then h_doc (fst b) <? h_doc (fst a) else 0 <? c.

  (* ---------- search.c *)
  Record topdocs := mkTd { td_total : Z; td_hits : list hit; td_max : Z }.
  Inductive sres := Raises | Undefined | Found (t : topdocs).
  (* a searcher with a weight and filters: the documents of the scorer (None: no scorer), the number of documents that are not deleted,
     the bits of the filter, the post filter (None: the factor is 0), the comparators, max_doc *)
  Record sub := mkSub { u_hits : option (list hit); u_live : Z; u_bits : option (Z -> bool); u_post : option (hit -> option Z); u_comps : list comp; u_max : Z }.
  Section Q.
    Variables (A : Type) (lt : A -> A -> bool).
    (* score_docs[i] = hq_pop(hq) for i = n - 1 down to 0 *)
    Fixpoint pop_n (n : nat) (q : pq A) (acc : list A) : option (list A) :=
      match n with
      | O => Some acc
      | S k => do r <- pq_pop A lt q; match fst r with Some x => pop_n k (snd r) (x :: acc) | None => None end
      end.
    (* from if (hq->size > first_doc) on *)
    Definition page (first num : Z) (q : pq A) : option (list A) :=
      if first <? Z.of_nat (pq_size q) then
        pop_n (Z.to_nat (if Z.of_nat (pq_size q) - first <? num then Z.of_nat (pq_size q) - first else num)) q []
      else Some [].
  End Q.
  (* while (scorer->next(scorer)) *)
  Fixpoint collect (lt : hit -> hit -> bool) (s : sub) (ms : list hit) (q : pq hit) (total maxs : Z) : option (pq hit * Z * Z) :=
    match ms with
    | [] => Some (q, total, maxs)
    | h :: t =>
        if (match u_bits s with Some b => negb (b (h_doc h)) | None => false end) then collect lt s t q total maxs
        else match (match u_post s with Some p => p h | None => Some (h_score h) end) with
             | None => collect lt s t q total maxs
             | Some sc => do r <- pq_insert hit lt q (mkHit (h_doc h) sc); collect lt s t (snd r) (total + 1) (if maxs <? sc then sc else maxs)
             end
    end.
  (* max_size; None: the sum overflows *)
  Definition max_size (first num : Z) : option Z := if num =? INT_MAX then Some num else if INT_MAX <? num + first then None else Some (num + first).
  Definition isea_search_w (s : sub) (first num : Z) (sort : bool) : sres :=
    match max_size first num with
    | None => Undefined
    | Some mx =>
        (* sea_check_args *)
        if (num <=? 0) || (first <? 0) then Raises
        else match u_hits s with
             | None => Found (mkTd 0 [] 0)
             | Some ms =>
                 if u_live s =? 0 then Found (mkTd 0 [] 0)
                 else let lt := if sort then fshq_lt (u_comps s) else hit_lt in
                      match (do x <- collect lt s ms (pq_new hit (Z.to_nat mx)) 0 0;
                             do l <- page hit lt first num (fst (fst x));
                             Some (mkTd (snd (fst x)) l (snd x))) with
                      | Some td => Found td
                      | None => Undefined
                      end
             end
    end.
  (* the hits of one searcher go to the common queue *)
  Definition to_fd (cs : list comp) (start : Z) (h : hit) : fdoc := (mkHit (h_doc h + start) (h_score h), map (fun c => get_val c h) cs).
  Fixpoint msea_loop (lt : fdoc -> fdoc -> bool) (mx : Z) (sort : bool) (start : Z) (ss : list sub) (q : pq fdoc) (total maxs : Z) : sres + (pq fdoc * Z * Z) :=
    match ss with
    | [] => inr (q, total, maxs)
    | s :: t =>
        match isea_search_w s 0 mx sort with
        | Found td =>
            match insert_all fdoc lt q (map (to_fd (u_comps s) start) (td_hits td)) with
            | Some q' => msea_loop lt mx sort (start + u_max s) t q' (total + td_total td)
                           (match td_hits td with [] => maxs | _ => if maxs <? td_max td then td_max td else maxs end)
            | None => inl Undefined
            end
        | r => inl r
        end
    end.
  Definition fd_lt (sort : bool) (ts : list (stype * bool)) (a b : fdoc) : bool := if sort then fdshq_lt ts a b else hit_lt (fst a) (fst b).
  Definition msea_search_w (ss : list sub) (ts : list (stype * bool)) (first num : Z) (sort : bool) : sres :=
    match max_size first num with
    | None => Undefined
    | Some mx =>
        if (num <=? 0) || (first <? 0) then Raises
        else match msea_loop (fd_lt sort ts) mx sort 0 ss (pq_new fdoc (Z.to_nat mx)) 0 0 with
             | inl r => r
             | inr (q, total, maxs) =>
                 match page fdoc (fd_lt sort ts) first num q with Some l => Found (mkTd total (map fst l) maxs) | None => Undefined end
             end
    end.
End SORT.

(* ---------- field_index.c: the terms of the field in order, each with its documents *)
Definition set_all (ds : list Z) (x : Z) (v : Z -> Z) : Z -> Z := fun d => if existsb (Z.eqb d) ds then x else v d.
(* 96-105 byte_handle_term: index[-1] counts from 1 *)
Fixpoint byte_index (n : Z) (l : list (list Z * list Z)) (v : Z -> Z) : Z -> Z := match l with [] => v | (_, ds) :: t => byte_index (n + 1) t (set_all ds n v) end.
