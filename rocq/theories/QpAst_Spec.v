(* The query language as a grammar: what can be written, how it is written, and what it means for a set of fields.
   The meaning of a query needs no stack: the fields it searches are an argument. *)
From Verif Require Import Util QpLex_Model QpAct_Model Qp_Spec.
Open Scope Z_scope.

Notation word_ := (list Z) (only parsing).
(* the words of a phrase after its first: a word, any word, another word for the place before *)
Inductive elem := PWord (x : word_) | PGap | PAlt (x : word_).
Inductive range :=
| RBoth (il iu : bool) (x y : word_)        (* [x y] {x y] [x y} {x y} *)
| RFrom (il : bool) (x : word_)             (* [x> {x> *)
| RUpTo (iu : bool) (x : word_)             (* <x] <x} *)
| RLess (x : word_) | RLessEq (x : word_)   (* <x <=x *)
| RMore (x : word_) | RMoreEq (x : word_).  (* >x >=x *)
Inductive conn := CAnd | COr | CNone.
Inductive ast :=
| ATerm (x : word_)
| AFuzzy (x : word_) (y : option word_)
| AWild (x : word_)
| ANothing                                  (* () *)
| AGroup (c : cls) (m : more)
| APhrase (x : option word_) (es : list elem) (slop : option word_)
| AEmpty (slop : option word_)              (* "" *)
| ARange (r : range)
| AField (x : word_) (xs : list word_) (q : ast)
| AAll (q : ast)                            (* *: *)
with cls := Cls (s : occ) (q : ast) (boost : option word_)
with more := MNil | MCons (k : conn) (c : cls) (m : more).
(* a query string: nothing or clauses *)
Definition top : Type := option (cls * more).

(* ---------- how it is written *)
Definition t_opt (k : tok) (o : option word_) : list tok := match o with Some y => [k; TWord y] | None => [] end.
Definition t_elem (e : elem) : list tok := match e with PWord x => [TWord x] | PGap => [TLt; TGt] | PAlt x => [TBar; TWord x] end.
Definition t_first (o : option word_) : list tok := match o with Some x => [TWord x] | None => [TLt; TGt] end.
Definition t_range (r : range) : list tok :=
  match r with
  | RBoth il iu x y => [if il then TLb else TLc; TWord x; TWord y; if iu then TRb else TRc]
  | RFrom il x => [if il then TLb else TLc; TWord x; TGt]
  | RUpTo iu x => [TLt; TWord x; if iu then TRb else TRc]
  | RLess x => [TLt; TWord x] | RLessEq x => [TLt; TEq; TWord x]
  | RMore x => [TGt; TWord x] | RMoreEq x => [TGt; TEq; TWord x]
  end.
Definition t_sign (s : occ) : list tok := match s with Should => [] | Must => [TReq] | MustNot => [TNot] end.
Definition t_conn (k : conn) : list tok := match k with CAnd => [TAnd] | COr => [TOr] | CNone => [] end.
Fixpoint toks (a : ast) : list tok :=
  match a with
  | ATerm x => [TWord x]
  | AFuzzy x y => TWord x :: TTilde :: match y with Some y => [TWord y] | None => [] end
  | AWild x => [TWild x]
  | ANothing => [TLp; TRp]
  | AGroup c m => TLp :: c_toks c ++ m_toks m ++ [TRp]
  | APhrase x es slop => TQuote :: t_first x ++ flat_map t_elem es ++ TQuote :: t_opt TTilde slop
  | AEmpty slop => TQuote :: TQuote :: t_opt TTilde slop
  | ARange r => t_range r
  | AField x xs q => TWord x :: flat_map (fun y => [TBar; TWord y]) xs ++ TColon :: toks q
  | AAll q => TStar :: TColon :: toks q
  end
with c_toks (c : cls) : list tok := match c with Cls s q b => t_sign s ++ toks q ++ t_opt TCaret b end
with m_toks (m : more) : list tok := match m with MNil => [] | MCons k c m' => t_conn k ++ c_toks c ++ m_toks m' end.
Definition top_toks (t : top) : list tok := match t with None => [] | Some (c, m) => c_toks c ++ m_toks m end.

(* a ~ takes the word after it: a clause that ends in a bare ~ is not followed by a word *)
Fixpoint open (a : ast) : bool := match a with AFuzzy _ None => true | AField _ _ q => open q | AAll q => open q | _ => false end.
Definition c_open (c : cls) : bool := match c with Cls _ q None => open q | _ => false end.
Definition on_word (ts : list tok) : bool := match ts with TWord _ :: _ => true | _ => false end.
Fixpoint wf (a : ast) : Prop :=
  match a with
  | AGroup c m => c_wf c /\ m_wf (c_open c) m
  | AField _ _ q => wf q
  | AAll q => wf q
  | _ => True
  end
with c_wf (c : cls) : Prop := match c with Cls _ q _ => wf q end
with m_wf (o : bool) (m : more) : Prop :=
  match m with MNil => True | MCons k c m' => (o = true -> on_word (t_conn k ++ c_toks c) = false) /\ c_wf c /\ m_wf (c_open c) m' end.
Definition top_wf (t : top) : Prop := match t with None => True | Some (c, m) => c_wf c /\ m_wf (c_open c) m end.

(* ---------- what it means *)
(* a query (or none); given up; undefined behaviour *)
Inductive ev (A : Type) := EOk (a : A) | EAbort | EUb.
Arguments EOk {A}. Arguments EAbort {A}. Arguments EUb {A}.
Definition ebind {A B} (e : ev A) (k : A -> ev B) : ev B := match e with EOk a => k a | EAbort => EAbort | EUb => EUb end.

Section EVAL.
  Variable cf : qconf.
  Variable cap : nat.
  (* a query for each of the fields *)
  Definition over {A} (func : list Z -> A -> gres A) (fs : list word_) (a : A) : ev (option qry) := match flds cf func (Some fs) a with FOk q => EOk q | _ => EUb end.
  Definition add1 (fs : list word_) (x : word_) : list word_ := if q_any cf || has (q_all cf) x then hs_add fs x else fs.
  Definition fields_of (xs : list word_) : list word_ := fold_left add1 xs [].
  Fixpoint words_of (p : phrase) (es : list elem) : option phrase :=
    match es with
    | [] => Some p
    | PWord x :: r => words_of (ph_add_word p (Some x)) r
    | PGap :: r => words_of (ph_add_word p None) r
    | PAlt x :: r => match ph_add_multi_word p x with Some p' => words_of p' r | None => None end
    end.
  Definition e_phrase (fs : list word_) (p : option phrase) (slop : option word_) : ev (option qry) :=
    match p with
    | None => EUb
    | Some p' => match flds cf (get_phrase_query cf slop) (Some fs) p' with FOk q => EOk q | FRaise _ => EAbort | FUb => EUb end
    end.
  Definition e_range (fs : list word_) (r : range) : ev (option qry) :=
    let go a b il iu := over (get_r_q cf cap il iu) fs (a, b) in
    match r with
    | RBoth il iu x y => go (Some x) (Some y) il iu
    | RFrom il x => go (Some x) None il false
    | RUpTo iu x => go None (Some x) false iu
    | RLess x => go None (Some x) false false | RLessEq x => go None (Some x) false true
    | RMore x => go (Some x) None false false | RMoreEq x => go (Some x) None true false
    end.
  Definition e_boost (q : option qry) (b : option word_) : option qry := match b with Some x => set_boost cf q x | None => q end.
  Definition e_add (k : conn) (cs : list (occ * qry)) (c : option (occ * qry)) : list (occ * qry) :=
    match k with CAnd => add_and_cls cs c | COr => add_or_cls cs c | CNone => add_default_cls cf cs c end.
  Fixpoint eval (fs : list word_) (a : ast) : ev (option qry) :=
    match a with
    | ATerm x => over (one_by_one (fun f => get_term_q cf f x)) fs tt
    | AFuzzy x y => over (one_by_one (fun f => get_fuzzy_q cf f x y)) fs tt
    | AWild x => over (get_wild_q cf cap) fs x
    | ANothing => EOk (Some (q_new (NBool true (q_max cf) [])))
    | AGroup c m => ebind (c_eval fs c) (fun x => ebind (m_eval fs (first_cls x) m) (fun cs => EOk (get_bool_q cs)))
    | APhrase x es slop => e_phrase fs (words_of (ph_first_word x) es) slop
    | AEmpty _ => EOk None
    | ARange r => e_range fs r
    | AField x xs q => eval (fields_of (x :: xs)) q
    | AAll q => eval (q_all cf) q
    end
  with c_eval (fs : list word_) (c : cls) : ev (option (occ * qry)) :=
    match c with Cls s q b => ebind (eval fs q) (fun x => EOk (get_bool_cls (e_boost x b) s)) end
  with m_eval (fs : list word_) (cs : list (occ * qry)) (m : more) : ev (list (occ * qry)) :=
    match m with MNil => EOk cs | MCons k c m' => ebind (c_eval fs c) (fun x => m_eval fs (e_add k cs x) m') end.
  Definition top_eval (fs : list word_) (t : top) : ev (option qry) :=
    match t with None => EOk None | Some (c, m) => ebind (c_eval fs c) (fun x => ebind (m_eval fs (first_cls x) m) (fun cs => EOk (get_bool_q cs))) end.
End EVAL.
