(* Which documents a query string asks for, told from what is written in it.  Nothing here builds a query: a clause says something of a document,
   or nothing at all (words that the analyzer drops).  Fields, words and phrases of the document are the predicates has and hasp. *)
From Verif Require Import Util Strcmp Token_Model Query_Model Expand_Model Expand_Spec Fuzzy_Model Range_Model Range_Spec Look_Spec QpLex_Model QpAct_Model Qp_Spec QpAst_Spec QpMean_Spec.
From Coq Require Import Sorting.Sorted.
From Verif Require Import Fields_Model Seg_Model Qp_Model.
Open Scope Z_scope.
Notation occur := Query_Model.occur.
Notation word := (list Z) (only parsing).

Definition heard {A} (l : list (option A)) : list A := flat_map (fun x => match x with Some y => [y] | None => [] end) l.
(* said of any of several: nothing, if nothing is said of each *)
Definition any (l : list (option Prop)) : option Prop := match heard l with [] => None | ps => Some (exists P, In P ps /\ P) end.
(* words that share a place *)
Fixpoint group (l : list (Z * word)) : list (Z * list word) :=
  match l with
  | [] => []
  | (p, w) :: r => match group r with (p', ws) :: g => if p =? p' then (p, w :: ws) :: g else (p, [w]) :: (p', ws) :: g | [] => [(p, [w])] end
  end.
(* where the tokens of a text stand, counted from the first *)
Fixpoint behind (p : Z) (ts : list token) : list (Z * word) := match ts with [] => [] | t :: r => (p + t_inc t, t_text t) :: behind (p + t_inc t) r end.
Definition spots (ts : list token) : list (Z * word) := match ts with [] => [] | t :: r => (0, t_text t) :: behind 0 r end.
(* the places of a phrase as it is written, the last first; a gap is a place without words; | adds to the last place that has one *)
Fixpoint put (x : word) (acc : list (list word)) : list (list word) := match acc with [] => [] | [] :: r => [] :: put x r | ws :: r => (ws ++ [x]) :: r end.
Fixpoint written (acc : list (list word)) (es : list elem) : list (list word) :=
  match es with [] => acc | PWord x :: r => written ([x] :: acc) r | PGap :: r => written ([] :: acc) r | PAlt x :: r => written (put x acc) r end.
(* the places with words, numbered *)
Fixpoint marked (k : Z) (l : list (list word)) : list (Z * list word) := match l with [] => [] | [] :: r => marked (k + 1) r | ws :: r => (k, ws) :: marked (k + 1) r end.
Definition places (x : option word) (es : list elem) : list (Z * list word) := marked 0 (rev (written (match x with Some w => [[w]] | None => [] end) es)).

(* a term between bounds *)
Definition above (incl : bool) (x t : word) : Prop := slt x t \/ incl = true /\ x = t.
Definition below (incl : bool) (x t : word) : Prop := slt t x \/ incl = true /\ x = t.
Definition within (c : word -> word) (r : QpAst_Spec.range) (t : word) : Prop :=
  match r with
  | RBoth il iu x y => above il (c x) t /\ below iu (c y) t
  | RFrom il x => above il (c x) t
  | RUpTo iu x => below iu (c x) t
  | RLess x => below false (c x) t | RLessEq x => below true (c x) t
  | RMore x => above false (c x) t | RMoreEq x => above true (c x) t
  end.

Section MEAN.
  Variable cf : qconf.
  Variable has : word -> (word -> Prop) -> Prop.                    (* there is a word in a field that satisfies ... *)
  Variable hasp : word -> Z -> list (Z * list word) -> Prop.        (* in a field there is a phrase with a slop *)
  Variable near : Z -> word -> word -> Prop.                        (* words that are similar *)

  Definition tokens_in (f x : word) : list token := match q_tok cf with None => [] | Some l => if QpAct_Model.has l f then q_ana cf f x else non_tokenize x end.
  (* words with a token each *)
  Definition firsts (f : word) (ws : list word) : list (option word) := map (fun w => option_map t_text (hd_error (tokens_in f w))) ws.

  (* ---------- one field *)
  Definition term_says (x f : word) : option Prop :=
    match tokens_in f x with
    | [] => None
    | [t] => Some (has f (eq (t_text t)))
    | ts => let g := group (spots ts) in Some (hasp f (Z.of_nat (length g) - 1) g)     (* a slop of one for each place but the first *)
    end.
  (* 0x3f000000: the bits of 0.5 *)
  Definition similarity (y : option word) : Z := match y with Some s => match q_scanf cf s with Some x => if (x =? 0) || (x =? 2 ^ 31) then 1056964608 else x | None => 1056964608 end | None => 1056964608 end.
  Definition fuzzy_says (x : word) (y : option word) (f : word) : option Prop := match tokens_in f x with [] => None | t :: _ => Some (has f (near (similarity y) (t_text t))) end.
  Definition wild_says (x f : word) : Prop := if seqb x [42] then True else has f (glob x).
  Definition one_of (f : word) (ts : list word) : Prop := match ts with [] => False | [t] => has f (eq t) | _ => has f (fun t => t <> [] /\ In t ts) end.
  (* a place of a phrase: all tokens of a single word, or the first of each of several *)
  Definition spread (f : word) (ws : list word) : list (Z * word) := match ws with [w] => spots (tokens_in f w) | _ => map (fun t => (0, t)) (heard (firsts f ws)) end.
  (* all places: the first token of one is as far behind the last token of the one before as written *)
  Fixpoint lay (f : word) (from : option (Z * Z)) (l : list (Z * list word)) : list (Z * word) :=
    match l with
    | [] => []
    | (k, ws) :: r =>
        match spread f ws with
        | [] => lay f from r
        | os => let b := match from with None => 0 | Some (p, j) => p + (k - j) end in
                map (fun o : Z * word => (b + fst o, snd o)) os ++ lay f (Some (b + fst (last os (0, [])), k)) r
        end
    end.
  (* the slop: as given, one for each place that lost its words (the last does not count), one for each token that shares the place of another of its word *)
  Definition count {A} (g : A -> bool) (l : list A) : Z := Z.of_nat (length (filter g l)).
  Definition doubles (f : word) (ws : list word) : Z := match ws with [w] => count (fun t => t_inc t =? 0) (tl (tokens_in f w)) | _ => 0 end.
  Definition sum (l : list Z) : Z := fold_right Z.add 0 l.
  Definition slop_of (f : word) (given : option word) (l : list (Z * list word)) : option Z :=
    match (match given with Some s => q_scand cf s | None => Some 0 end) with
    | None => None
    | Some n => Some (n + count (fun p : Z * list word => match spread f (snd p) with [] => true | _ => false end) (removelast l) + sum (map (fun p : Z * list word => doubles f (snd p)) l))
    end.

  (* ---------- several fields *)
  (* words that are put in lower case for a field stay so for the fields behind it *)
  Fixpoint cased (low : bool) (fs : list word) : list (word * bool) := match fs with [] => [] | f :: r => let b := low || lowers cf f in (f, b) :: cased b r end.
  Definition in_case (b : bool) (w : word) : word := if b then q_lower cf w else w.
  (* the alternatives of a phrase of one place: the tokens found for a field take the place of the words *)
  Fixpoint alts_say (ws : list word) (fs : list word) : list (option Prop) :=
    match fs with [] => [] | f :: r => Some (one_of f (heard (firsts f ws))) :: alts_say (map (fun o => match o with Some t => t | None => [] end) (firsts f ws)) r end.
  Definition phrase_says (given : option word) (l : list (Z * list word)) (fs : list word) : option Prop :=
    match l with
    | [] => None
    | [(_, [w])] => any (map (term_says w) fs)
    | [(_, ws)] => any (alts_say ws fs)
    | _ => any (map (fun f => option_map (fun n => hasp f n (group (lay f None l))) (slop_of f given l)) fs)
    end.

  (* ---------- clauses *)
  Definition occur_of (o : occ) : occur := match o with QpAct_Model.Should => Query_Model.Should | QpAct_Model.Must => Query_Model.Must | QpAct_Model.MustNot => Query_Model.MustNot end.
  (* a connective that requires both sides *)
  Definition requires (k : conn) : bool := match k with CAnd => true | COr => false | CNone => negb (q_or cf) end.
  Definition required (b : bool) (o : occur) : occur := if b then match o with Query_Model.MustNot => Query_Model.MustNot | _ => Query_Model.Must end else o.
  (* a clause is required if the connective before it says so; the first also if the one behind it does. Clauses that say nothing are not there. *)
  Definition signed (x : conn * (occur * Prop)) : occur * Prop := (required (requires (fst x)) (fst (snd x)), snd (snd x)).
  Definition signs (l : list (conn * (occur * Prop))) : list (occur * Prop) :=
    match l with
    | [] => []
    | x :: r => (required (match r with y :: _ => requires (fst y) | [] => false end) (fst (signed x)), snd (snd x)) :: map signed r
    end.
  Definition all_say (l : list (conn * (occur * option Prop))) : option Prop :=
    match heard (map (fun x : conn * (occur * option Prop) => option_map (fun P => (fst x, (fst (snd x), P))) (snd (snd x))) l) with [] => None | cs => Some (comb (signs cs)) end.

  Fixpoint says (fs : list word) (a : ast) : option Prop :=
    match a with
    | ATerm x => any (map (term_says x) fs)
    | AFuzzy x y => any (map (fuzzy_says x y) fs)
    | AWild x => any (map (fun p : word * bool => Some (wild_says (in_case (snd p) x) (fst p))) (cased false fs))
    | ANothing => Some False
    | AGroup c m => all_say ((COr, c_says fs c) :: m_says fs m)
    | APhrase x es slop => phrase_says slop (places x es) fs
    | AEmpty _ => None
    | ARange r => any (map (fun p : word * bool => Some (has (fst p) (within (in_case (snd p)) r))) (cased false fs))
    | AField x xs q => says (fields_of cf (x :: xs)) q
    | AAll q => says (q_all cf) q
    end
  with c_says (fs : list word) (c : cls) : occur * option Prop := match c with Cls s q _ => (occur_of s, says fs q) end
  with m_says (fs : list word) (m : more) : list (conn * (occur * option Prop)) := match m with MNil => [] | MCons k c m' => (k, c_says fs c) :: m_says fs m' end.
  (* a string that says nothing asks for no documents *)
  Definition top_says (t : top) : Prop :=
    match t with None => False | Some (c, m) => match all_say ((COr, c_says (q_def cf) c) :: m_says (q_def cf) m) with Some P => P | None => False end end.

  (* ---------- what a query built by the parser asks for *)
  Fixpoint qsat (q : qry) : Prop := match q with Q _ n => nsat n end
  with nsat (n : qnode) : Prop :=
    match n with
    | NTerm f t => has f (eq t)
    | NPhrase f s ps => hasp f s ps
    | NFuzzy f t min _ => has f (near min t)
    | NWild f p _ => has f (glob p)
    | NPrefix f p _ => has f (fun t => exists u, t = p ++ u)
    | NAll => True
    | NRange typed f a b il iu => typed = false /\ has f (in_range (mkRange a b il iu))   (* TypedRangeQuery is not told *)
    | NMulti f ts => has f (fun t => t <> [] /\ In t ts)   (* MultiTermQuery takes no empty terms *)
    | NBool _ _ cs => comb (map (fun c : occ * qry => (occur_of (fst c), qsat (snd c))) cs)
    end.
End MEAN.

(* ---------- on a document *)
Definition alike (sim : fscore -> Z) (pl : nat) (min : Z) (t : word) : word -> Prop := Look_Spec.near sim t pl min.
Definition extensional (has : word -> (word -> Prop) -> Prop) : Prop := forall f P Q, (forall t, P t <-> Q t) -> (has f P <-> has f Q).
(* what is asked of a parser: it knows which fields are tokenized; the first token of a text does not share a place with one before it; lower case
   is final; ranges compare strings *)
Record settled (cf : qconf) : Prop := {
  st_tok : q_tok cf <> None;
  st_first : forall f w t r, tokens_in cf f w = t :: r -> t_inc t <> 0;
  st_idem : forall w, q_lower cf (q_lower cf w) = q_lower cf w;
  st_typed : q_typed cf = false }.
(* a parser that is ready makes a query of the string; one that recovers from errors only if the string is written as the grammar has it and
   says something *)
Definition parsed_to (cf : qconf) (s : word) (q : qry) : Prop :=
  exists p p', ready cf p /\ answers cf p s (AnsQ q) p' /\ (q_handle cf = false \/ exists t q', writes cf s t /\ value cf s t = EOk (Some q')).
(* the numbers of the documents of which a string speaks, in order, however it is read *)
Definition found (cf : qconf) (pl : nat) ana max (F : field_infos) (sim : fscore -> Z) (slots : list (option document)) (s : word) (L : list Z) : Prop :=
  StronglySorted Z.lt L /\ (exists t, writes cf s t) /\
  forall t, writes cf s t -> forall d, In d L <-> exists k x, d = Z.of_nat k /\ nth_error slots k = Some (Some x) /\ top_says cf (doc_has ana max F x) (doc_phrase ana max F x) (alike sim pl) t.
(* no parentheses *)
Fixpoint flat (a : ast) : bool := match a with AGroup _ _ => false | AField _ _ b | AAll b => flat b | _ => true end.
Definition flat_cls (c : cls) : bool := match c with Cls _ a _ => flat a end.
Fixpoint flat_more (m : more) : bool := match m with MNil => true | MCons _ c r => flat_cls c && flat_more r end.
Definition flat_top (t : top) : bool := match t with None => true | Some (c, m) => flat_cls c && flat_more m end.
