(* C81 C82 C83 C84 C85 C86 C87: the query parser. *)
From Coq Require Import String Ascii.
From Verif Require Import Util Strcmp Token_Model QpLex_Model QpAct_Model QpClean_Model Qp_Model Qp_Spec QpAst_Spec QpMean_Spec QpUse_Spec QpTop_Proofs QpUse_Proofs.
Open Scope Z_scope.

(* ---------- for the examples *)
Definition z (s : string) : list Z := map (fun a => Z.of_nat (nat_of_ascii a)) (list_ascii_of_string s).
Definition lower1 (c : Z) : Z := if (65 <=? c) && (c <=? 90) then c + 32 else c.
Definition down (t : token) : token := mkTok (map lower1 (t_text t)) (t_start t) (t_end t) (t_inc t).
Definition ana1 (f text : list Z) : list token := map down (non_tokenize text).
Definition digits (w : list Z) : option Z :=
  if forallb (fun c => (48 <=? c) && (c <=? 57)) w then Some (fold_left (fun a c => 10 * a + (c - 48)) w 0) else None.
(* default fields, known fields, tokenized fields *)
Definition cfg (handle clean wl : bool) (max : Z) (def all tok : list (list Z)) : qconf :=
  mkQc true wl clean handle true true false max all def (Some tok) (Some def) ana1 (map lower1) digits digits sltb.
Definition strict : qconf := cfg false false true 512 [z "f"] [z "f"; z "g"] [z "f"].
Definition lenient : qconf := cfg true true true 512 [z "f"] [z "f"; z "g"] [z "f"].
Definition ask (cf : qconf) (s : string) : option answer := option_map fst (qp_parse cf 2000 (qp_new cf) (z s)).
Definition trm (f t : string) : qry := q_new (NTerm (z f) (z t)).
Lemma lower1_idem c : lower1 (lower1 c) = lower1 c.
Proof. unfold lower1. destruct ((65 <=? c) && (c <=? 90)) eqn:E; [|rewrite E; reflexivity]. apply andb_true_iff in E. destruct E as [E1 E2]. apply Z.leb_le in E1, E2.
  destruct ((65 <=? c + 32) && (c + 32 <=? 90)) eqn:E; [|reflexivity]. apply andb_true_iff in E. destruct E as [_ E]. apply Z.leb_le in E. lia. Qed.
Lemma cfg_sane handle clean wl max def all tok : Z.of_nat (List.length all) <= max -> Z.of_nat (List.length def) <= max -> sane (cfg handle clean wl max def all tok).
Proof.
  intros A D. split; cbn [cfg q_tok q_lower q_all q_def].
  - discriminate.
  - intros w. rewrite map_length. lia.
  - intros w. rewrite map_map. apply map_ext. exact lower1_idem.
  - exact A.
  - exact D.
Qed.

(* ---------- C81: the language *)
(* A strict parser (handle_parse_errors off) answers a query exactly if the words and marks of the string, cleaned if so configured, are a way to write
   something of the grammar that has a meaning, and the query is that meaning.  The grammar's meaning has no stack: fields are
   passed down. *)
Theorem C81_strict : forall cf p s, ready cf p -> moderate cf s -> q_handle cf = false -> forall q,
  (exists p', answers cf p s (AnsQ q) p') <-> (exists t o, writes cf s t /\ value cf s t = EOk o /\ q = query_of o).
Proof. exact strict_mean. Qed.
Print Assumptions C81_strict.
(* A recovering parser answers the meaning too if there is a query. *)
Theorem C81_lenient : forall cf p s, ready cf p -> moderate cf s -> q_handle cf = true -> forall t q,
  writes cf s t -> value cf s t = EOk (Some q) -> exists p', answers cf p s (AnsQ q) p'.
Proof. exact lenient_mean. Qed.
Print Assumptions C81_lenient.
(* However a string can be read, it means the same; for any configuration, any fields. *)
Theorem C81_unambiguous : forall cf cap fs t t', top_wf t -> top_wf t' -> top_toks t = top_toks t' -> top_eval cf cap fs t = top_eval cf cap fs t'.
Proof. exact one_meaning. Qed.
Print Assumptions C81_unambiguous.
(* Any string of words shorter than 254 bytes gets an answer, however long it is. *)
Theorem C81_ends : forall cf p s, ready cf p -> Forall short_tok (toks_of cf s) -> exists a p', answers cf p s a p'.
Proof. exact always_ends. Qed.
Print Assumptions C81_ends.
Definition ex81 : string := "+One g:(two || *:[a c}) -three^2 ""x <> y|z""~3".
Definition top81 : top := Some (Cls Must (ATerm (z "One")) None,
  MCons CNone (Cls Should (AField (z "g") [] (AGroup (Cls Should (ATerm (z "two")) None) (MCons COr (Cls Should (AAll (ARange (RBoth true false (z "a") (z "c")))) None) MNil))) None)
  (MCons CNone (Cls MustNot (ATerm (z "three")) (Some (z "2")))
  (MCons CNone (Cls Should (APhrase (Some (z "x")) [PGap; PWord (z "y"); PAlt (z "z")] (Some (z "3"))) None) MNil))).
Example C81_written : writes strict (z ex81) top81 /\ moderate strict (z ex81) /\ ready strict (qp_new strict).
Proof.
  split; [split; [|vm_compute; reflexivity]|].
  - cbn. repeat split; intros; discriminate.
  - split; [|reflexivity]. split; [|apply Nat.leb_le; vm_compute; reflexivity].
    change (toks_of strict (z ex81)) with (top_toks top81). repeat (constructor; [cbn; lia|]). constructor.
Qed.
Definition rng (f : string) : qry := q_new (NRange false (z f) (Some (z "a")) (Some (z "c")) true false).
Example C81_example : ask strict ex81 = Some (AnsQ (bq_new [
    (Must, trm "f" "one");
    (Should, bq_new [(Should, trm "g" "two"); (Should, q_new (NBool false 512 [(Should, rng "f"); (Should, rng "g")]))]);
    (MustNot, Q 2 (NTerm (z "f") (z "three")));
    (Should, q_new (NPhrase (z "f") 3 [(0, [z "x"]); (2, [z "y"; z "z"])]))])).
Proof. vm_compute. reflexivity. Qed.

(* ---------- C82: a parser can be used again *)
(* What was parsed before does not matter. *)
Theorem C82_independent : forall cf p1 p2 s a p1', ready cf p1 -> ready cf p2 -> Forall short_tok (toks_of cf s) -> answers cf p1 s a p1' ->
  exists p2', answers cf p2 s a p2' /\ p_fs p2' = p_fs p1'.
Proof. exact same_answers. Qed.
Print Assumptions C82_independent.
(* After a query the parser is ready again; after an exception too, unless the string has parts that are given up. *)
Theorem C82_ready : forall cf p s, ready cf p -> moderate cf s -> forall a p', answers cf p s a p' ->
  (a = AnsUb \/ (a = AnsRaise /\ forall t o, writes cf s t -> value cf s t <> EOk o)) \/ ready cf p'.
Proof. exact ready_again. Qed.
Print Assumptions C82_ready.
Definition then_ask (cf : qconf) (s1 s2 : string) : option (answer * answer) :=
  match qp_parse cf 2000 (qp_new cf) (z s1) with Some (a, p) => option_map (fun r => (a, fst r)) (qp_parse cf 2000 p (z s2)) | None => None end.
Example C82_example : then_ask strict "g:(a *:(b" "x" = Some (AnsRaise, AnsQ (trm "f" "x")) /\
  then_ask lenient "g:(Some words" "Y" = Some (AnsQ (bq_new [(Should, trm "g" "Some"); (Should, trm "g" "words")]), AnsQ (trm "f" "y")).
Proof. split; vm_compute; reflexivity. Qed.
(* A phrase for more fields than max_clauses raises an exception; between parentheses it leaves its fields on the stack, and the next query fails
   an assertion, whatever it is. *)
Definition few : qconf := cfg false false true 1 [z "f"] [z "f"; z "g"] [z "f"].
Theorem C82_again_refuted : exists cf s1 s2 p' p'', ready cf (qp_new cf) /\
  qp_parse cf 2000 (qp_new cf) s1 = Some (AnsRaise, p') /\ qp_parse cf 2000 p' s2 = Some (AnsUb, p'') /\ option_map fst (qp_parse cf 2000 (qp_new cf) s2) = Some (AnsQ (trm "f" "x")).
Proof. exists few, (z "f|g:(""a b"")"), (z "x"). do 2 eexists. split; [reflexivity|]. split; [vm_compute; reflexivity|]. split; vm_compute; reflexivity. Qed.
Print Assumptions C82_again_refuted.

(* ---------- C83: a recovering parser always has a query *)
(* With the defaults of the Ruby library a query is always answered: the meaning of the string if it has one, else a query for the whole string as one term;
   for strings of short words without the things that go wrong (nice). *)
Theorem C83_recovers : forall cf p s, sane cf -> ready cf p -> moderate cf s -> nice cf (toks_of cf s) -> q_handle cf = true ->
  exists q p', answers cf p s (AnsQ q) p' /\ ready cf p' /\
    ((exists t, writes cf s t /\ value cf s t = EOk (Some q)) \/ ((forall t q', writes cf s t -> value cf s t <> EOk (Some q')) /\ AnsQ q = fallback cf s)).
Proof. exact safe_lenient. Qed.
Print Assumptions C83_recovers.
(* A strict parser raises an exception exactly for the strings that are not of the grammar. *)
Theorem C83_strict : forall cf p s, sane cf -> ready cf p -> moderate cf s -> nice cf (toks_of cf s) -> q_handle cf = false ->
  exists a p', answers cf p s a p' /\ ready cf p' /\
    ((exists t o, writes cf s t /\ value cf s t = EOk o /\ a = AnsQ (query_of o)) \/ ((forall t, ~ writes cf s t) /\ a = AnsRaise)).
Proof. exact safe_strict. Qed.
Print Assumptions C83_strict.
Definition ex83 : string := "g:[a b} ""x y""~2 AND AND ~ c^".
Lemma cfg_nice cf s : (Z.of_nat (List.length (toks_of cf s)) <=? q_max cf) && forallb (fun k => match k with TWord w | TWild w => (List.length w <? 254)%nat | _ => true end) (toks_of cf s) = true ->
  plain cf (toks_of cf s) -> nice cf (toks_of cf s).
Proof.
  intros H P. apply andb_true_iff in H. destruct H as [H1 H2]. split; [exact P|]. split; [|apply Z.leb_le; exact H1].
  rewrite forallb_forall in H2. apply Forall_forall. intros k K. specialize (H2 k K). destruct k; cbn; try exact Logic.I; apply Nat.ltb_lt; exact H2.
Qed.
Example C83_example : sane lenient /\ nice lenient (toks_of lenient (z ex83)) /\ ask lenient ex83 = Some (AnsQ (trm "f" "g:[a b} ""x y""~2 and and ~ c^")) /\
  ask strict ex83 = Some AnsRaise /\ ask lenient """()[]" = Some (AnsQ (trm "f" "()[]")).
Proof.
  split; [apply cfg_sane; cbn; lia|]. split; [apply cfg_nice; [vm_compute; reflexivity|]|].
  - vm_compute. repeat split; discriminate.
  - split; [|split]; vm_compute; reflexivity.
Qed.
(* It is not so for all strings: a range from the greater to the smaller bound; an alternative after a gap at the start of a phrase; a slop that
   is no number; a word of 255 bytes before another one. *)
Definition long_word : list Z := repeat 97 255.
Theorem C83_always_refuted : exists cf, sane cf /\ ready cf (qp_new cf) /\ q_handle cf = true /\
  (forall s, In s [z "[b a]"; z """<>|a"""; z """a b""~x"; long_word ++ z " b"] -> option_map fst (qp_parse cf 2000 (qp_new cf) s) = Some AnsUb).
Proof.
  exists lenient. split; [apply cfg_sane; cbn; lia|]. split; [reflexivity|]. split; [reflexivity|].
  intros s H. repeat (destruct H as [<-|H]; [vm_compute; reflexivity|]). destruct H.
Qed.
Print Assumptions C83_always_refuted.
(* A parser of the Ruby library without a default field has no fields at the bottom of its stack: after any part with a field, a word without one
   dereferences NULL. *)
Definition no_default : qconf := mkQc true true true true true true false 512 [z "f"; z "g"] [z "f"; z "g"] (Some [z "f"; z "g"]) None ana1 (map lower1) digits digits sltb.
Theorem C83_default_refuted : sane no_default /\ ask no_default "x" = Some (AnsQ (q_new (NBool false 512 [(Should, trm "f" "x"); (Should, trm "g" "x")]))) /\
  ask no_default "f:x" = Some (AnsQ (trm "f" "x")) /\ ask no_default "f:x y" = Some AnsUb.
Proof.
  split; [|split; [|split]; vm_compute; reflexivity]. split; cbn [no_default q_tok q_lower q_all q_def].
  - discriminate.
  - intros w. rewrite map_length. lia.
  - intros w. rewrite map_map. apply map_ext. exact lower1_idem.
  - vm_compute. discriminate.
  - vm_compute. discriminate.
Qed.
Print Assumptions C83_default_refuted.

(* ---------- C84: cleaning a string *)
(* The string fits the memory that is allocated for it, at any time. *)
Theorem C84_fits : forall s, (List.length (clean_str s) <= 2 * List.length s)%nat /\ forall n, (List.length (cl_out (clean_all (firstn n s))) <= 2 * List.length s)%nat.
Proof. exact clean_space. Qed.
Print Assumptions C84_fits.
(* It is balanced, if backslashes are used with some care. *)
Theorem C84_balanced : forall s, tidy s -> balanced (clean_str s).
Proof. exact clean_balanced. Qed.
Print Assumptions C84_balanced.
(* Without quotes only parentheses at the ends are added, and none if it is balanced. *)
Theorem C84_adds : forall s, ~ In 34 s -> exists k m, clean_str s = repeat 40 k ++ s ++ repeat 41 m.
Proof. exact clean_adds. Qed.
Print Assumptions C84_adds.
Theorem C84_same : forall s, ~ In 34 s -> balanced s -> clean_str s = s.
Proof. exact clean_same. Qed.
Print Assumptions C84_same.
Example C84_example : tidy (z "a) (b ""c(<>d|e-\""f") /\ clean_str (z "a) (b ""c(<>d|e-\""f") = z "(a) (b ""c\(<>d|e\-\""f"")" /\
  balanced (z "\)a (b (c) \\) d") /\ clean_str (z "\)a (b (c) \\) d") = z "\)a (b (c) \\) d".
Proof. split; [eexists; split; [vm_compute; reflexivity|discriminate]|]. split; [|split]; vm_compute; reflexivity. Qed.
(* The parenthesis that is added can be escaped by a last backslash; and what is escaped between quotes loses its backslash. *)
Theorem C84_balanced_refuted : ~ balanced (clean_str (z "(foo\")) /\ ~ balanced (clean_str (z """a\(b""")) /\ ~ balanced (clean_str (z """a\\"" b")) /\
  clean_str (z "(foo\") = z "(foo\)" /\ clean_str (z """a\(b""") = z """a(b""" /\ clean_str (z """a\\"" b") = z """a\"" b".
Proof. repeat split; vm_compute; (discriminate || reflexivity). Qed.
Print Assumptions C84_balanced_refuted.

(* ---------- C85: escaping *)
(* Any word of less than 254 bytes but the four keywords, whatever its bytes, is written by a backslash before each of its bytes: wild characters are
   plain then. *)
Theorem C85_writes : forall cf w, w <> [] -> ~ is_keyword w -> writes cf (escape w) (single (ATerm w)).
Proof. exact escape_writes. Qed.
Print Assumptions C85_writes.
Theorem C85_term : forall cf p f w, ready cf p -> w <> [] -> ~ is_keyword w -> (List.length w < 254)%nat -> q_def cf = [f] -> (exists l, q_tok cf = Some l /\ has l f = false) ->
  exists p', answers cf p (escape w) (AnsQ (q_new (NTerm f w))) p'.
Proof. exact escape_answer. Qed.
Print Assumptions C85_term.
Definition whole : qconf := cfg true true true 512 [z "g"] [z "g"] [].
Example C85_example : option_map fst (qp_parse whole 2000 (qp_new whole) (escape (z "a* b:""(\"))) = Some (AnsQ (trm "g" "a* b:""(\")) /\
  ask whole "a* b:""(\" <> Some (AnsQ (trm "g" "a* b:""(\")).
Proof. split; [vm_compute; reflexivity|vm_compute; discriminate]. Qed.
(* The keywords cannot be written this way. *)
Theorem C85_keywords_refuted : exists cf, ready cf (qp_new cf) /\ q_handle cf = false /\ forall w, is_keyword w -> option_map fst (qp_parse cf 2000 (qp_new cf) (escape w)) = Some AnsRaise.
Proof. exists strict. split; [reflexivity|]. split; [reflexivity|]. intros w [->|[->|[->| ->]]]; vm_compute; reflexivity. Qed.
Print Assumptions C85_keywords_refuted.

(* ---------- C86: connectives *)
(* Two or more clauses joined by the same connective: with AND, or with nothing where that is AND, all but the prohibited ones are
   required; with OR, or with nothing where that is OR, they are as they are written. *)
Theorem C86_chain : forall cf cap fs k c cs l, evals cf cap fs (c :: cs) = Some l -> cs <> [] ->
  top_eval cf cap fs (Some (c, chain k cs)) = EOk (Some (bq_new (if ands cf k then map required l else l))).
Proof. exact chain_value. Qed.
Print Assumptions C86_chain.
Example C86_example : ask strict "a AND b && -c AND +d" = Some (AnsQ (bq_new [(Must, trm "f" "a"); (Must, trm "f" "b"); (MustNot, trm "f" "c"); (Must, trm "f" "d")])) /\
  ask strict "a OR +b || -c" = Some (AnsQ (bq_new [(Should, trm "f" "a"); (Must, trm "f" "b"); (MustNot, trm "f" "c")])).
Proof. split; vm_compute; reflexivity. Qed.
(* AND does not join its two neighbours: after two clauses or more only the one on its right is required. *)
Theorem C86_neighbours_refuted : ask strict "a OR b AND c" = Some (AnsQ (bq_new [(Should, trm "f" "a"); (Should, trm "f" "b"); (Must, trm "f" "c")])) /\
  ask strict "b AND c OR a" = Some (AnsQ (bq_new [(Must, trm "f" "b"); (Must, trm "f" "c"); (Should, trm "f" "a")])).
Proof. split; vm_compute; reflexivity. Qed.
Print Assumptions C86_neighbours_refuted.

(* ---------- C87: several fields *)
(* A word, or a fuzzy word, for several fields is any of what it is for each of them. *)
Theorem C87_term : forall cf cap fs x, q_tok cf <> None -> small cf fs -> eval cf cap fs (ATerm x) = EOk (join cf (map (fun f => ev_opt (eval cf cap [f] (ATerm x))) fs)).
Proof. exact term_fields. Qed.
Print Assumptions C87_term.
Theorem C87_fuzzy : forall cf cap fs x y, q_tok cf <> None -> small cf fs -> eval cf cap fs (AFuzzy x y) = EOk (join cf (map (fun f => ev_opt (eval cf cap [f] (AFuzzy x y))) fs)).
Proof. exact fuzzy_fields. Qed.
Print Assumptions C87_fuzzy.
(* A pattern too, if it is put in lower case for all of the fields or for none. *)
Theorem C87_wild : forall cf cap, sane cf -> forall b fs x, (forall f, In f fs -> lowers cf f = b) -> (List.length x < 254)%nat -> small cf fs ->
  eval cf cap fs (AWild x) = EOk (join cf (map (fun f => ev_opt (eval cf cap [f] (AWild x))) fs)).
Proof. exact wild_fields. Qed.
Print Assumptions C87_wild.
Example C87_example : eval strict 9 [z "f"; z "g"] (ATerm (z "Ab")) = EOk (Some (q_new (NBool false 512 [(Should, trm "f" "ab"); (Should, trm "g" "Ab")]))) /\
  eval strict 9 [z "g"; z "h"] (AWild (z "A?b")) = EOk (Some (q_new (NBool false 512 [(Should, q_new (NWild (z "g") (z "A?b") 512)); (Should, q_new (NWild (z "h") (z "A?b") 512))]))).
Proof. split; vm_compute; reflexivity. Qed.
(* It is not so for patterns and ranges where only some of the fields are tokenized, nor for the alternatives of a phrase: what was made of the words for a field is what
   the next field gets. *)
Theorem C87_fields_refuted :
  ask strict "g:ABC*" = Some (AnsQ (q_new (NPrefix (z "g") (z "ABC") 512))) /\
  ask strict "g|f:ABC*" = Some (AnsQ (q_new (NBool false 512 [(Should, q_new (NPrefix (z "g") (z "ABC") 512)); (Should, q_new (NPrefix (z "f") (z "abc") 512))]))) /\
  ask strict "f|g:ABC*" = Some (AnsQ (q_new (NBool false 512 [(Should, q_new (NPrefix (z "f") (z "abc") 512)); (Should, q_new (NPrefix (z "g") (z "abc") 512))]))) /\
  ask strict "f|g:>A" = Some (AnsQ (q_new (NBool false 512 [(Should, q_new (NRange false (z "f") (Some (z "a")) None false false)); (Should, q_new (NRange false (z "g") (Some (z "a")) None false false))]))) /\
  ask strict "f|g:""A|B""" = Some (AnsQ (q_new (NBool false 512 [(Should, q_new (NMulti (z "f") [z "a"; z "b"])); (Should, q_new (NMulti (z "g") [z "a"; z "b"]))]))).
Proof. repeat split; vm_compute; reflexivity. Qed.
Print Assumptions C87_fields_refuted.
