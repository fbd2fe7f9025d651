(* Model of what the query parser builds, c/src/q_parser.y 88-200 and 444-1123: the queries, the phrases and the stack of fields.
   Symbols are interned strings: a field is its name.  A HashSet of fields is the list of its elements, in the order they were added.
   The analyzer, the conversions of sscanf and the comparison of numbers are parameters; the cached token streams are reset
   before they are used, so they are functions of field and text.  towlower is a parameter too, and lower_str is taken to keep the length of its
   string.  The words that lower_str changes in place are passed on from field to field; they are not written back into
   the buffer of the lexer, for the reduction that follows drops them.  Memory is not released: destructors are not modelled.
   The slop of a phrase is not bounded. *)
From Verif Require Import Util Token_Model Strcmp.
Open Scope Z_scope.

Notation sym := (list Z) (only parsing).
Definition one : Z := 1065353216.
Definition half : Z := 1056964608.
Inductive occ := Should | Must | MustNot.
(* a query: its boost (the bits of a float) and what it is *)
Inductive qry := Q (boost : Z) (n : qnode)
with qnode :=
| NTerm (f t : list Z)
| NPhrase (f : list Z) (slop : Z) (ps : list (Z * list (list Z)))
| NFuzzy (f t : list Z) (sim max : Z)
| NWild (f p : list Z) (max : Z)
| NPrefix (f p : list Z) (max : Z)
| NAll
| NRange (typed : bool) (f : list Z) (from to : option (list Z)) (il iu : bool)
| NMulti (f : list Z) (ts : list (list Z))
| NBool (coord_disabled : bool) (max : Z) (cs : list (occ * qry)).
(* q_new: boost 1.0 *)
Definition q_new (n : qnode) : qry := Q one n.
Definition DEFAULT_MAX_CLAUSES : Z := 1024.
Definition bq_new : list (occ * qry) -> qry := fun cs => q_new (NBool false DEFAULT_MAX_CLAUSES cs).

Record qconf := mkQc {
  q_or : bool; q_wl : bool; q_clean : bool; q_handle : bool; q_any : bool; q_kw : bool; q_typed : bool; q_max : Z;
  q_all : list (list Z); q_def : list (list Z); q_tok : option (list (list Z)); q_bot : option (list (list Z));
  q_ana : list Z -> list Z -> list token; q_lower : list Z -> list Z;
  q_scanf : list Z -> option Z; q_scand : list Z -> option Z; q_less : list Z -> list Z -> bool }.

Definition has (fs : list (list Z)) (f : list Z) : bool := existsb (seqb f) fs.
Definition hs_add (fs : list (list Z)) (f : list Z) : list (list Z) := if has fs f then fs else fs ++ [f].
(* the result of building a query for a field *)
Inductive gres (A : Type) := GOk (q : option qry) (a : A) | GRaise | GUb.
Arguments GOk {A}. Arguments GRaise {A}. Arguments GUb {A}.
Inductive fres := FOk (q : option qry) | FRaise (q : option qry) | FUb.

Section ACT.
  Variable cf : qconf.
  (* strlen(qstr) *)
  Variable cap : nat.

  (* 480-498 get_cached_ts *)
  Definition get_ts (f text : list Z) : option (list token) :=
    match q_tok cf with None => None | Some l => Some (if has l f then q_ana cf f text else non_tokenize text) end.

  (* ---------- c/src/q_phrase.c 1160-1200 *)
  Definition phq_add_term (ps : list (Z * list (list Z))) (t : list Z) (inc : Z) : list (Z * list (list Z)) :=
    ps ++ [(match rev ps with [] => 0 | (p, _) :: _ => p + inc end, [t])].
  Definition phq_append (ps : list (Z * list (list Z))) (t : list Z) : list (Z * list (list Z)) :=
    match rev ps with [] => phq_add_term ps t 0 | (p, ts) :: r => rev r ++ [(p, ts ++ [t])] end.

  (* 652-684 get_term_q *)
  Fixpoint term_rest (ts : list token) (slop : Z) (ps : list (Z * list (list Z))) : Z * list (Z * list (list Z)) :=
    match ts with
    | [] => (slop, ps)
    | t :: r => if t_inc t =? 0 then term_rest r slop (phq_append ps (t_text t))
                else term_rest r (slop + 1) (phq_add_term ps (t_text t) (t_inc t))
    end.
  Definition get_term_q (f w : list Z) : option (option qry) :=
    do ts <- get_ts f w;
    match ts with
    | [] => Some None
    | [t] => Some (Some (q_new (NTerm f (t_text t))))
    | t :: r => let x := term_rest r 0 (phq_add_term [] (t_text t) 0) in Some (Some (q_new (NPhrase f (fst x) (snd x))))
    end.
  (* 690-710 get_fuzzy_q, c/src/q_fuzzy.c 255-276 fuzq_new_conf *)
  Definition get_fuzzy_q (f w : list Z) (slop : option (list Z)) : option (option qry) :=
    do ts <- get_ts f w;
    match ts with
    | [] => Some None
    | t :: _ => let sim := match slop with Some s => match q_scanf cf s with Some x => x | None => half end | None => half end in
                Some (Some (q_new (NFuzzy f (t_text t) (if (sim =? 0) || (sim =? 2 ^ 31) then half else sim) (if q_max cf =? 0 then 256 else q_max cf))))
    end.
  (* 716-738 lower_str: 737 writes one byte after the terminating NUL *)
  Definition lower_str (w : list Z) : option (list Z) :=
    if ((length w <=? 253) || (255 <=? length w) && (length w <? cap))%nat then Some (q_lower cf w) else None.
  Definition lowers (f : list Z) : bool := q_wl cf && match q_tok cf with None => true | Some l => has l f end.
  Definition lower_for (f w : list Z) : option (list Z) := if lowers f then lower_str w else Some w.
  Definition wildc (c : Z) : bool := (c =? 42) || (c =? 63).
  (* 750-789 get_wild_q *)
  Definition get_wild_q (f w : list Z) : gres (list Z) :=
    match lower_for f w with
    | None => GUb
    | Some p =>
        GOk (Some (match p with
                   | [42] => q_new NAll
                   | _ => if (last p 0 =? 42) && negb (existsb wildc (removelast p)) then q_new (NPrefix f (removelast p) (q_max cf))
                          else q_new (NWild f p (q_max cf))
                   end)) p
    end.
  (* 1048-1081 get_r_q; c/src/q_range.c 101-188: bounds the wrong way round raise an exception *)
  Definition lower_opt (f : list Z) (w : option (list Z)) : option (option (list Z)) :=
    match w with None => Some None | Some v => do v' <- lower_for f v; Some (Some v') end.
  Definition reversed (from to : option (list Z)) : bool :=
    match from, to with Some a, Some b => if q_typed cf then q_less cf b a else sltb b a | _, _ => false end.
  Definition get_r_q (il iu : bool) (f : list Z) (a : option (list Z) * option (list Z)) : gres (option (list Z) * option (list Z)) :=
    match lower_opt f (fst a), lower_opt f (snd a) with
    | Some from, Some to => if reversed from to then GRaise else GOk (Some (q_new (NRange (q_typed cf) f from to il iu))) (from, to)
    | _, _ => GUb
    end.

  (* ---------- phrases *)
  (* the positions (the increment and the words) and pos_inc *)
  Record phrase := mkPh { ph_pos : list (Z * list (list Z)); ph_inc : Z }.
  (* 843-852, 857-877, 883-892 *)
  Definition ph_first_word (w : option (list Z)) : phrase := match w with Some v => mkPh [(0, [v])] 0 | None => mkPh [] 0 end.
  Definition ph_add_word (p : phrase) (w : option (list Z)) : phrase :=
    match w with Some v => mkPh (ph_pos p ++ [(ph_inc p, [v])]) 0 | None => mkPh (ph_pos p) (ph_inc p + 1) end.
  Definition ph_add_multi_word (p : phrase) (w : list Z) : option phrase :=
    match rev (ph_pos p) with [] => None | (i, ws) :: r => Some (mkPh (rev r ++ [(i, ws ++ [w])]) (ph_inc p)) end.

  (* 938-951: the words of a single position, each replaced by its first token or by the empty string; the number of tokens; last_word *)
  Fixpoint first_tokens (f : list Z) (ws : list (list Z)) : option (list (list Z) * nat * list Z) :=
    match ws with
    | [] => Some ([], O, [])
    | w :: r =>
        do ts <- get_ts f w;
        do x <- first_tokens f r;
        let '(vs, n, l) := x in
        match ts with
        | t :: _ => Some (t_text t :: vs, S n, if (n =? 0)%nat then t_text t else l)
        | [] => Some ([] :: vs, n, l)
        end
    end.
  (* 985-997: the tokens of a word *)
  Fixpoint add_tokens (ts : list token) (pinc slop : Z) (ps : list (Z * list (list Z))) : Z * Z * list (Z * list (list Z)) :=
    match ts with
    | [] => (pinc, slop, ps)
    | t :: r => if t_inc t =? 0 then add_tokens r 0 (slop + 1) (phq_append ps (t_text t))
                else add_tokens r 0 slop (phq_add_term ps (t_text t) (if pinc =? 0 then t_inc t else pinc))
    end.
  (* 1002-1016: the alternatives of a position *)
  Fixpoint add_alts (f : list Z) (ws : list (list Z)) (added : bool) (pinc : Z) (ps : list (Z * list (list Z))) : option (Z * list (Z * list (list Z))) :=
    match ws with
    | [] => Some (pinc, ps)
    | w :: r =>
        do ts <- get_ts f w;
        match ts with
        | [] => add_alts f r added pinc ps
        | t :: _ => if added then add_alts f r true pinc (phq_append ps (t_text t))
                    else add_alts f r true 0 (phq_add_term ps (t_text t) (if pinc =? 0 then t_inc t else pinc))
        end
    end.
  (* 975-1019 *)
  Fixpoint add_positions (f : list Z) (l : list (Z * list (list Z))) (pinc slop : Z) (ps : list (Z * list (list Z))) : option (Z * list (Z * list (list Z))) :=
    match l with
    | [] => Some (slop, ps)
    | (i, ws) :: r =>
        let slop1 := if pinc =? 0 then slop else slop + 1 in
        let pinc1 := pinc + (i + 1) in
        match ws with
        | [w] => do ts <- get_ts f w; let '(p2, s2, ps2) := add_tokens ts pinc1 slop1 ps in add_positions f r p2 s2 ps2
        | _ => do x <- add_alts f ws false pinc1 ps; add_positions f r (fst x) slop1 (snd x)
        end
    end.
  (* 922-1022 get_phrase_query; 971: a slop that is no number leaves an uninitialised int *)
  Definition get_phrase_query (slop : option (list Z)) (f : list Z) (p : phrase) : gres phrase :=
    match ph_pos p with
    | [] => GOk None p
    | [(i, ws)] =>
        match ws with
        | [w] => match get_term_q f w with Some q => GOk q p | None => GUb end
        | _ =>
            match first_tokens f ws with
            | None => GUb
            | Some (vs, n, l) =>
                GOk (Some (match n with
                           | O => bq_new []
                           | S O => q_new (NTerm f l)
                           | _ => q_new (NMulti f (filter (fun v => negb (match v with [] => true | _ => false end)) vs))
                           end)) (mkPh [(i, vs)] (ph_inc p))
            end
        end
    | l =>
        match (match slop with Some s => q_scand cf s | None => Some 0 end) with
        | None => GUb
        | Some s => match add_positions f l 0 s [] with Some x => GOk (Some (q_new (NPhrase f (fst x) (snd x)))) p | None => GUb end
        end
    end.

  (* ---------- 165-196 FLDS: func for each of the fields *)
  Fixpoint flds_more {A} (func : list Z -> A -> gres A) (fs : list (list Z)) (a : A) (cs : list (occ * qry)) : fres :=
    let bq := q_new (NBool false (q_max cf) cs) in
    match fs with
    | [] => FOk (match cs with [] => None | _ => Some bq end)
    | f :: r =>
        match func f a with
        | GOk (Some q) a' => if q_max cf <=? Z.of_nat (length cs) then FRaise (Some bq) else flds_more func r a' (cs ++ [(Should, q)])
        | GOk None a' => flds_more func r a' cs
        | GRaise => FRaise (Some bq)
        | GUb => FUb
        end
    end.
  Definition flds {A} (func : list Z -> A -> gres A) (cur : option (list (list Z))) (a : A) : fres :=
    match cur with
    | None => FUb
    | Some [] => FOk None
    | Some [f] => match func f a with GOk q _ => FOk q | GRaise => FRaise None | GUb => FUb end
    | Some fs => flds_more func fs a []
    end.

  (* ---------- boolean queries *)
  (* 505-538 get_bool_q *)
  Definition get_bool_q (cs : list (occ * qry)) : option qry :=
    match cs with
    | [] => None
    | [(MustNot, q)] => Some (bq_new [(MustNot, q); (Must, q_new NAll)])
    | [(_, q)] => Some q
    | _ => Some (bq_new cs)
    end.
  (* 634-643 get_bool_cls, 558-567 first_cls *)
  Definition get_bool_cls (q : option qry) (o : occ) : option (occ * qry) := match q with Some x => Some (o, x) | None => None end.
  Definition first_cls (c : option (occ * qry)) : list (occ * qry) := match c with Some x => [x] | None => [] end.
  Definition must (c : occ * qry) : occ * qry := match fst c with MustNot => c | _ => (Must, snd c) end.
  (* 575-589 add_and_cls, 594-600 add_or_cls, 606-616 add_default_cls *)
  Definition add_and_cls (cs : list (occ * qry)) (c : option (occ * qry)) : list (occ * qry) :=
    match c with
    | None => cs
    | Some x => match cs with [y] => [must y; must x] | _ => cs ++ [must x] end
    end.
  Definition add_or_cls (cs : list (occ * qry)) (c : option (occ * qry)) : list (occ * qry) := match c with None => cs | Some x => cs ++ [x] end.
  Definition add_default_cls (cs : list (occ * qry)) (c : option (occ * qry)) : list (occ * qry) := if q_or cf then add_or_cls cs c else add_and_cls cs c.
  (* 239: sscanf into the boost *)
  Definition set_boost (q : option qry) (w : list Z) : option qry :=
    match q with Some (Q b n) => Some (Q (match q_scanf cf w with Some x => x | None => b end) n) | None => None end.

  (* ---------- the state that actions change: the stack of fields from its top, fields, destruct and result *)
  Record world := mkW { w_fs : list (option (list (list Z))); w_cur : option (list (list Z)); w_des : bool; w_res : option qry }.
  (* 1091-1102 qp_push_fields, 1108-1120 qp_pop_fields *)
  Definition push_fields (w : world) (fs : option (list (list Z))) : world := mkW (fs :: w_fs w) fs (w_des w) (w_res w).
  Definition pop_fields (w : world) : world :=
    mkW (tl (w_fs w)) (match tl (w_fs w) with f :: _ => f | [] => w_cur w end) (w_des w) (w_res w).
  (* 794-801 add_field, 808-812 first_field; fields is the set on top of the stack *)
  Definition add_field (w : world) (f : list Z) : option world :=
    match w_cur w with
    | None => None
    | Some fs => let c := Some (if q_any cf || has (q_all cf) f then hs_add fs f else fs) in Some (mkW (c :: tl (w_fs w)) c (w_des w) (w_res w))
    end.
  Definition first_field (w : world) (f : list Z) : option world := add_field (push_fields w (Some [])) f.
  (* 449-470 yyerror *)
  Definition yyerror (w : world) : world :=
    mkW [last (w_fs w) None] (match w_fs w with [_] => w_cur w | _ => last (w_fs w) None end) true (w_res w).
  Definition set_res (w : world) (q : option qry) : world := mkW (w_fs w) (w_cur w) (w_des w) q.
  Definition set_des (w : world) : world := mkW (w_fs w) (w_cur w) true (w_res w).
End ACT.
