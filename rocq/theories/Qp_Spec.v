(* The query language, without tables: the words and marks of a string, and a parser by recursive descent over them. *)
From Verif Require Import Util QpLex_Model QpAct_Model.
Open Scope Z_scope.

(* ---------- words and marks *)
Inductive tok :=
| TWord (w : list Z) | TWild (w : list Z) | TAnd | TOr | TNot | TReq
| TColon | TCaret | TLp | TRp | TTilde | TStar | TBar | TQuote | TLt | TGt | TLb | TRb | TRc | TLc | TEq.

(* the word a string begins with, whether it has a wild character, and what follows *)
Fixpoint word (s : list Z) : list Z * bool * list Z :=
  match s with
  | [] => ([], false, [])
  | c :: s1 =>
      if memz c not_word then ([], false, s)
      else if c =? 92 then
        match s1 with
        | [] => ([92], false, [])
        | c2 :: s2 => let '(w, b, r) := word s2 in (c2 :: w, b, r)
        end
      else if c =? 58 then
        match s1 with
        | c2 :: s2 => if c2 =? 58 then let '(w, b, r) := word s2 in (58 :: 58 :: w, b, r) else ([], false, s)
        | [] => ([], false, s)
        end
      else let '(w, b, r) := word s1 in (c :: w, (c =? 42) || (c =? 63) || b, r)
  end.
Definition word_tok (kw : bool) (w : list Z) (wild : bool) : tok :=
  match (if kw then keyword w else None) with
  | Some k => if k =? AND then TAnd else if k =? NOT then TNot else if k =? REQ then TReq else TOr
  | None => if wild then TWild w else TWord w
  end.
Definition lex_word (kw : bool) (s : list Z) : tok * list Z := let '(w, b, r) := word s in (word_tok kw w b, r).
Definition begins (c : Z) (s : list Z) : bool := match s with n :: _ => n =? c | [] => false end.
(* the first word or mark of a string *)
Definition lex1 (kw : bool) (s0 : list Z) : option (tok * list Z) :=
  match skip_sp s0 with
  | [] => None
  | c :: s => Some (
      if (c =? 45) || (c =? 33) then (TNot, s)
      else if c =? 43 then (TReq, s)
      else if c =? 42 then (if begins 58 s then (TStar, s) else lex_word kw (c :: s))
      else if c =? 38 then (if begins 38 s then (TAnd, tl s) else lex_word kw (c :: s))
      else if c =? 124 then (if begins 124 s then (TOr, tl s) else (TBar, s))
      else if c =? 58 then (TColon, s) else if c =? 94 then (TCaret, s)
      else if c =? 40 then (TLp, s) else if c =? 41 then (TRp, s)
      else if c =? 126 then (TTilde, s) else if c =? 34 then (TQuote, s)
      else if c =? 60 then (TLt, s) else if c =? 62 then (TGt, s)
      else if c =? 91 then (TLb, s) else if c =? 93 then (TRb, s)
      else if c =? 125 then (TRc, s) else if c =? 123 then (TLc, s)
      else if c =? 61 then (TEq, s)
      else lex_word kw (c :: s))
  end.
Fixpoint lexn (n : nat) (kw : bool) (s : list Z) : list tok :=
  match n with
  | O => []
  | S m => match lex1 kw s with Some (k, r) => k :: lexn m kw r | None => [] end
  end.
Definition tokens (kw : bool) (s : list Z) : list tok := lexn (S (length s)) kw s.
Definition short_tok (k : tok) : Prop := match k with TWord w | TWild w => (length w < 254)%nat | _ => True end.
(* no word of 254 bytes or more *)
Definition short (kw : bool) (s : list Z) : Prop := Forall short_tok (tokens kw s).

(* ---------- recursive descent *)
(* a result and what is left; a syntax error; an action that failed; undefined behaviour; too little fuel *)
Inductive res (A : Type) := ROk (a : A) (w : world) (ts : list tok) | RBad (w : world) | RAbort (w : world) | RUb | RFuel.
Arguments ROk {A}. Arguments RBad {A}. Arguments RAbort {A}. Arguments RUb {A}. Arguments RFuel {A}.
Definition rbind {A B} (r : res A) (k : A -> world -> list tok -> res B) : res B :=
  match r with ROk a w ts => k a w ts | RBad w => RBad w | RAbort w => RAbort w | RUb => RUb | RFuel => RFuel end.

Section RD.
  Variable cf : qconf.
  Variable cap : nat.
  Variable maxdepth : nat.

  (* one more symbol on a stack of d *)
  Definition sh {A} (d : nat) (w : world) (k : nat -> res A) : res A := if (maxdepth <=? S d)%nat then RBad (yyerror w) else k (S d).
  (* a result is only kept if nothing has failed *)
  Definition fine {A} (a : A) (w : world) (ts : list tok) : res A := if w_des w then RAbort w else ROk a w ts.
  Definition each (r : fres) (w : world) (ts : list tok) : res (option qry) :=
    match r with FOk q => fine q w ts | _ => RUb end.
  Definition one_by_one (f : list Z -> option (option qry)) : list Z -> unit -> gres unit := fun fd _ => match f fd with Some q => GOk q tt | None => GUb end.
  Definition r_term (x : list Z) (w : world) := each (flds cf (one_by_one (fun f => get_term_q cf f x)) (w_cur w) tt) w.
  Definition r_fuzzy (x : list Z) (y : option (list Z)) (w : world) := each (flds cf (one_by_one (fun f => get_fuzzy_q cf f x y)) (w_cur w) tt) w.
  Definition r_wild (x : list Z) (w : world) := each (flds cf (get_wild_q cf cap) (w_cur w) x) w.
  Definition r_range (a b : option (list Z)) (il iu : bool) (w : world) := each (flds cf (get_r_q cf cap il iu) (w_cur w) (a, b)) w.
  Definition r_phrase (p : phrase) (slop : option (list Z)) (w : world) (ts : list tok) : res (option qry) :=
    match flds cf (get_phrase_query cf slop) (w_cur w) p with
    | FOk q => ROk (if w_des w then None else q) w ts
    | FRaise _ => ROk None (set_des w) ts
    | FUb => RUb
    end.
  Definition bad {A} (w : world) : res A := RBad (yyerror w).

  (* the words of a phrase after the first, up to the quote; the stack holds d *)
  Fixpoint p_words (d : nat) (w : world) (p : phrase) (ts : list tok) : res (option qry) :=
    match ts with
    | TWord x :: r => sh d w (fun _ => p_words d w (ph_add_word p (Some x)) r)
    | TLt :: TGt :: r => sh d w (fun d1 => sh d1 w (fun _ => p_words d w (ph_add_word p None) r))
    | TBar :: TWord x :: r =>
        sh d w (fun d1 => sh d1 w (fun _ => match ph_add_multi_word p x with Some p' => p_words d w p' r | None => RUb end))
    | TQuote :: r =>
        sh d w (fun d1 =>
          match r with
          | TTilde :: TWord y :: r2 => sh d1 w (fun d2 => sh d2 w (fun _ => r_phrase p (Some y) w r2))
          | TTilde :: _ => bad w
          | _ => r_phrase p None w r
          end)
    | _ => bad w
    end.
  Definition p_phrase (d : nat) (w : world) (ts : list tok) : res (option qry) :=
    match ts with
    | TQuote :: r =>
        sh d w (fun d1 =>
          match r with
          | TTilde :: TWord _ :: r2 => sh d1 w (fun d2 => sh d2 w (fun _ => ROk None w r2))
          | TTilde :: _ => bad w
          | _ => ROk None w r
          end)
    | TWord x :: r => sh d w (fun d1 => p_words d1 w (ph_first_word (Some x)) r)
    | TLt :: TGt :: r => sh d w (fun d1 => sh d1 w (fun _ => p_words d1 w (ph_first_word None) r))
    | _ => bad w
    end.
  (* after < *)
  Definition p_less (d : nat) (w : world) (ts : list tok) : res (option qry) :=
    match ts with
    | TWord x :: r =>
        sh d w (fun d1 =>
          match r with
          | TRc :: r1 => sh d1 w (fun _ => r_range None (Some x) false false w r1)
          | TRb :: r1 => sh d1 w (fun _ => r_range None (Some x) false true w r1)
          | _ => r_range None (Some x) false false w r
          end)
    | TEq :: TWord x :: r => sh d w (fun d1 => sh d1 w (fun _ => r_range None (Some x) false true w r))
    | _ => bad w
    end.
  (* after > *)
  Definition p_more (d : nat) (w : world) (ts : list tok) : res (option qry) :=
    match ts with
    | TWord x :: r => sh d w (fun _ => r_range (Some x) None false false w r)
    | TEq :: TWord x :: r => sh d w (fun d1 => sh d1 w (fun _ => r_range (Some x) None true false w r))
    | _ => bad w
    end.
  (* after [ or { *)
  Definition p_from (il : bool) (d : nat) (w : world) (ts : list tok) : res (option qry) :=
    match ts with
    | TWord x :: r =>
        sh d w (fun d1 =>
          match r with
          | TGt :: r1 => sh d1 w (fun _ => r_range (Some x) None il false w r1)
          | TWord y :: r1 =>
              sh d1 w (fun d2 =>
                match r1 with
                | TRb :: r2 => sh d2 w (fun _ => r_range (Some x) (Some y) il true w r2)
                | TRc :: r2 => sh d2 w (fun _ => r_range (Some x) (Some y) il false w r2)
                | _ => bad w
                end)
          | _ => bad w
          end)
    | _ => bad w
    end.

  Section Q.
    (* a query on a stack of d *)
    Variable p_q : nat -> world -> list tok -> res (option qry).
    (* q, then the fields come off the stack *)
    Definition scoped (d : nat) (w : world) (ts : list tok) : res (option qry) :=
      rbind (p_q d w ts) (fun q w1 ts1 => sh (S d) (pop_fields w1) (fun _ => ROk q (pop_fields w1) ts1)).
    (* the fields after the first, and the query after the colon; the stack holds d, the fields included *)
    Fixpoint p_fields (d : nat) (w : world) (ts : list tok) : res (option qry) :=
      match ts with
      | TBar :: TWord x :: r =>
          sh d w (fun d1 => sh d1 w (fun _ => match add_field cf w x with Some w1 => p_fields d w1 r | None => RUb end))
      | TColon :: r => sh d w (fun d1 => scoped d1 w r)
      | _ => bad w
      end.
    (* a query with its boost *)
    Definition p_boosted (d : nat) (w : world) (ts : list tok) : res (option qry) :=
      rbind (p_q d w ts) (fun q w1 ts1 =>
        match ts1 with
        | TCaret :: TWord b :: r => sh (S d) w1 (fun d2 => sh d2 w1 (fun _ => fine (set_boost cf q b) w1 r))
        | TCaret :: _ => bad w1
        | _ => ROk q w1 ts1
        end).
    (* a clause *)
    Definition p_cls (d : nat) (w : world) (ts : list tok) : res (option (occ * qry)) :=
      match ts with
      | TReq :: r => sh d w (fun d1 => rbind (p_boosted d1 w r) (fun q w1 t => fine (get_bool_cls q Must) w1 t))
      | TNot :: r => sh d w (fun d1 => rbind (p_boosted d1 w r) (fun q w1 t => fine (get_bool_cls q MustNot) w1 t))
      | _ => rbind (p_boosted d w ts) (fun q w1 t => fine (get_bool_cls q Should) w1 t)
      end.
    (* whether a clause can begin with it *)
    Definition starts (ts : list tok) : bool :=
      match ts with
      | (TWord _ | TWild _ | TNot | TReq | TLp | TStar | TQuote | TLt | TGt | TLb | TLc) :: _ => true
      | _ => false
      end.
    (* the clauses after the first; the stack holds d, the clauses included *)
    Fixpoint p_loop (n : nat) (d : nat) (w : world) (cs : list (occ * qry)) (ts : list tok) : res (list (occ * qry)) :=
      match n with
      | O => RFuel
      | S n' =>
          match ts with
          | TAnd :: r => sh d w (fun d1 => rbind (p_cls d1 w r) (fun c w1 t => rbind (fine (add_and_cls cs c) w1 t) (fun cs' w2 t2 => p_loop n' d w2 cs' t2)))
          | TOr :: r => sh d w (fun d1 => rbind (p_cls d1 w r) (fun c w1 t => rbind (fine (add_or_cls cs c) w1 t) (fun cs' w2 t2 => p_loop n' d w2 cs' t2)))
          | _ => if starts ts then rbind (p_cls d w ts) (fun c w1 t => rbind (fine (add_default_cls cf cs c) w1 t) (fun cs' w2 t2 => p_loop n' d w2 cs' t2))
                 else ROk cs w ts
          end
      end.
    Definition p_clss (n : nat) (d : nat) (w : world) (ts : list tok) : res (list (occ * qry)) :=
      rbind (p_cls d w ts) (fun c w1 t => rbind (fine (first_cls c) w1 t) (fun cs w2 t2 => p_loop n (S d) w2 cs t2)).
  End Q.

  Fixpoint p_q (n : nat) (d : nat) (w : world) (ts : list tok) : res (option qry) :=
    match n with
    | O => RFuel
    | S n' =>
        match ts with
        | TWord x :: r =>
            sh d w (fun d1 =>
              match r with
              | TTilde :: TWord y :: r2 => sh d1 w (fun d2 => sh d2 w (fun _ => r_fuzzy x (Some y) w r2))
              | TTilde :: r1 => sh d1 w (fun _ => r_fuzzy x None w r1)
              | TColon :: _ | TBar :: _ => match first_field cf w x with Some w1 => p_fields (p_q n') d1 w1 r | None => RUb end
              | _ => r_term x w r
              end)
        | TWild x :: r => sh d w (fun _ => r_wild x w r)
        | TStar :: r =>
            sh d w (fun d1 =>
              let w1 := push_fields w (Some (q_all cf)) in
              sh d1 w1 (fun d2 => match r with TColon :: r1 => sh d2 w1 (fun d3 => scoped (p_q n') d3 w1 r1) | _ => bad w1 end))
        | TLp :: r =>
            sh d w (fun d1 =>
              match r with
              | TRp :: r1 => sh d1 w (fun _ => fine (Some (q_new (NBool true (q_max cf) []))) w r1)
              | _ => rbind (p_clss (p_q n') n' d1 w r) (fun cs w1 t =>
                       match t with TRp :: r1 => sh (S d1) w1 (fun _ => fine (get_bool_q cs) w1 r1) | _ => bad w1 end)
              end)
        | TQuote :: r => sh d w (fun d1 => p_phrase d1 w r)
        | TLt :: r => sh d w (fun d1 => p_less d1 w r)
        | TGt :: r => sh d w (fun d1 => p_more d1 w r)
        | TLb :: r => sh d w (fun d1 => p_from true d1 w r)
        | TLc :: r => sh d w (fun d1 => p_from false d1 w r)
        | _ => bad w
        end
    end.

  (* the whole string: the result is in the world *)
  Definition p_top (n : nat) (w : world) (ts : list tok) : res unit :=
    if starts ts then
      rbind (p_clss (p_q n) n 1 w ts) (fun cs w1 t =>
        rbind (fine tt (set_res w1 (get_bool_q cs)) t) (fun _ w2 _ => match t with [] => ROk tt w2 [] | _ => bad w2 end))
    else match ts with [] => ROk tt (set_res w None) [] | _ => bad (set_res w None) end.
End RD.
