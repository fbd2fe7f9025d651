(* Which queries come back when their string is parsed, and as what. *)
From Coq Require Import List ZArith Bool Arith.
From Verif Require Import Util Text_Model Text_Spec.
From Verif Require Import Token_Model QpLex_Model QpAct_Model QpClean_Model Qp_Model Qp_Spec QpAst_Spec QpMean_Spec QpUse_Spec.
Import ListNotations.
Open Scope Z_scope.

(* a byte that means nothing to the parser *)
Definition simple (c : Z) : bool := negb (memz c special_char) && negb (memz c [32; 9; 92]).
(* a byte that means nothing behind another byte of a word *)
Definition inner (c : Z) : bool := negb (memz c not_word) && negb (memz c [92; 58; 42; 63]).
(* words of the query language: not AND, OR, NOT, REQ, and of less than 254 bytes *)
Definition good_word (w : list Z) : Prop :=
  match w with c :: r => simple c = true /\ forallb inner r = true | [] => False end /\ ~ is_keyword w /\ (length w < 254)%nat.
(* such words within quotes *)
Definition plain_word (w : list Z) : Prop := good_word w /\ forallb simple w = true.
(* words with * or ? *)
Definition pattern (p : list Z) : Prop :=
  match p with c :: r => simple c || wildc c = true /\ forallb (fun c => inner c || wildc c) r = true | [] => False end /\
  existsb wildc p = true /\ (length p < 254)%nat.

Section AGAIN.
  Variable cf : qconf.
  (* the bits of a float, and the number printed for it *)
  Variable bits : num -> Z.
  (* a number whose digits are read back as it; negative numbers are not read *)
  Definition reads (x : num) : Prop := good_word (number x) /\ q_scanf cf (number x) = Some (bits x).
  Definition reads_b (b : Text_Model.boost) : Prop := match b with Some x => reads x | None => True end.
  (* the analyzer makes one token of the word and leaves it as it is *)
  Definition kept (f w : list Z) : Prop := exists t, get_ts cf f w = Some [t] /\ t_text t = w /\ t_inc t <> 0.
  (* it is in lower case already, or that does not matter *)
  Definition low (f w : list Z) : Prop := lowers cf f = true -> q_lower cf w = w.
  Definition known (f : list Z) : Prop := good_word f /\ q_any cf || has (q_all cf) f = true.
  Definition bound (f : list Z) (w : option (list Z)) : Prop := match w with Some v => good_word v /\ low f v | None => True end.
  Fixpoint rising (prev : Z) (ps : list (Z * list (list Z))) : Prop := match ps with [] => True | p :: r => prev < fst p /\ rising (fst p) r end.
  Definition place (f : list Z) (p : Z * list (list Z)) : Prop := snd p <> [] /\ Forall (fun w => plain_word w /\ kept f w) (snd p).

  (* queries that come back: words that need no escape, known fields, two clauses and more, two positions and more in order *)
  Fixpoint again (q : query) : Prop :=
    match q with
    | Term f t b => known f /\ good_word t /\ kept f t /\ reads_b b
    | Bool cs b => (2 <= length cs)%nat /\ (fix all l := match l with [] => True | c :: l' => again (snd c) /\ all l' end) cs /\ reads_b b
    | Phrase f ps slop b =>
        known f /\ (2 <= length ps)%nat /\ match ps with p :: r => rising (fst p) r | [] => True end /\ Forall (place f) ps /\
        (slop = 0 \/ good_word (dec slop) /\ q_scand cf (dec slop) = Some slop) /\ reads_b b
    | MultiTerm f ts b =>
        known f /\ (2 <= length ts)%nat /\ Forall (fun t => plain_word (fst t) /\ kept f (fst t) /\ snd t = None) ts /\ reads_b b
    | Prefix f p b => known f /\ p <> [] /\ existsb wildc p = false /\ pattern (p ++ [42]) /\ low f (p ++ [42]) /\ reads_b b
    | Wild f p b => known f /\ pattern p /\ (last p 0 = 42 -> existsb wildc (removelast p) = true) /\ low f p /\ reads_b b
    | Fuzzy f t (Some s) b => known f /\ good_word t /\ kept f t /\ reads s /\ bits s <> 0 /\ bits s <> 2 ^ 31 /\ reads_b b
    | Range r b =>
        known (r_field r) /\ bound (r_field r) (r_lower r) /\ bound (r_field r) (r_upper r) /\ (r_lower r <> None \/ r_upper r <> None) /\
        reversed cf (r_lower r) (r_upper r) = false /\ reads_b b
    | All b => q_lower cf [42] = [42] /\ reads_b b
    | _ => False
    end.

  Definition occ_of (o : occur) : occ :=
    match o with Text_Model.Should => Should | Text_Model.Must => Must | Text_Model.MustNot => MustNot end.
  Definition with_boost (b : Text_Model.boost) (n : qnode) : qry := Q (match b with Some x => bits x | None => one end) n.
  (* the query in the terms of the parser: what is not written is as the parser makes it (the kind of a range, the most terms a
     query may have), positions count from the first, a bound that is missing is not included *)
  Fixpoint same_query (q : query) : qry :=
    match q with
    | Term f t b => with_boost b (NTerm f t)
    | Bool cs b => with_boost b (NBool false 1024 (map (fun c => (occ_of (fst c), same_query (snd c))) cs))
    | Phrase f ps slop b =>
        with_boost b (NPhrase f slop (map (fun p => (fst p - match ps with p0 :: _ => fst p0 | [] => 0 end, snd p)) ps))
    | MultiTerm f ts b => with_boost b (NMulti f (map fst ts))
    | Prefix f p b => with_boost b (NPrefix f p (q_max cf))
    | Wild f p b => with_boost b (NWild f p (q_max cf))
    | Fuzzy f t sim b =>
        with_boost b (NFuzzy f t (match sim with Some s => bits s | None => half end) (if q_max cf =? 0 then 256 else q_max cf))
    | Range r b =>
        with_boost b (NRange (q_typed cf) (r_field r) (r_lower r) (r_upper r)
          (match r_lower r with Some _ => r_incl r | None => false end) (match r_upper r with Some _ => r_incu r | None => false end))
    | All b => with_boost b NAll
    | _ => q_new NAll
    end.
End AGAIN.
(* the string fits the parser: not more words and marks than its stack allows for *)
Definition fits (cf : qconf) (s : list Z) : Prop := (2 * length (toks_of cf s) + 3 <= YYMAXDEPTH)%nat.
