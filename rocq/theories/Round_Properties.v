(* C108-C109: the string of a query, parsed again. *)
From Coq Require Import String Ascii.
From Coq Require Import List ZArith Bool Arith Lia.
From Verif Require Import Util Text_Model Text_Spec Text_Properties.
From Verif Require Import Strcmp Token_Model QpLex_Model QpAct_Model QpClean_Model Qp_Model Qp_Spec QpAst_Spec QpMean_Spec QpUse_Spec Qp_Properties Round_Spec Round_Proofs RoundMean_Proofs.
Import ListNotations.
Open Scope Z_scope.
Open Scope list_scope.

(* C108.  ruby/ext/r_search.c:399-404: "Most of the time, passing this string through the Query parser will give you the exact Query you
   began with": for these queries, any parser with one default field and OR between clauses, cleaning or not, recovering or not. *)
Theorem C108_round_trip : forall cf bits df d p q, ready cf p -> q_def cf = [d] -> df = None \/ df = Some d -> q_or cf = true ->
  Text_Spec.fine q -> again cf bits q -> fits cf (spell df q) ->
  exists s p', to_s df q = Some s /\ answers cf p s (AnsQ (same_query cf bits q)) p'.
Proof.
  intros cf bits df d p q RE D HD OR F A FI. destruct (round_trip cf bits df d p q RE D HD OR A FI) as [p' X]. exists (spell df q), p'. split; [exact (C106_spelled df q F)|exact X].
Qed.
Print Assumptions C108_round_trip.
(* So two such queries with the same string are the same query. *)
Theorem C108_distinct : forall cf bits df d q q', q_def cf = [d] -> df = None \/ df = Some d -> q_or cf = true ->
  Text_Spec.fine q -> Text_Spec.fine q' -> again cf bits q -> again cf bits q' -> fits cf (spell df q) -> fits cf (spell df q') ->
  to_s df q = to_s df q' -> same_query cf bits q = same_query cf bits q'.
Proof.
  intros cf bits df d q q' D HD OR F F' A A' FI FI' E. rewrite (C106_spelled df q F), (C106_spelled df q' F') in E. apply some_inj in E.
  assert (RE : ready cf (mkQp false [] [] None O [Some (q_def cf)])) by reflexivity.
  destruct (round_trip cf bits df d _ q RE D HD OR A FI) as (p1 & k1 & X1). destruct (round_trip cf bits df d _ q' RE D HD OR A' FI') as (p2 & k2 & X2).
  specialize (X1 k2). specialize (X2 k1). rewrite E, Nat.add_comm in X1. rewrite X1 in X2. congruence.
Qed.
Print Assumptions C108_distinct.

(* for the examples: 2.5 is read as 25 *)
Definition tenths (w : list Z) : option Z := digits (List.filter (fun c => negb (c =? 46)) w).
Definition reader (or handle clean : bool) : qconf :=
  mkQc or true clean handle true true false 512 [z "f"; z "g"] [z "f"] (Some [z "f"]) (Some [z "f"]) ana1 (map lower1) tenths digits sltb.
Definition bits1 (x : num) : Z := match tenths (number x) with Some v => v | None => 0 end.
Definition trm1 (f t : string) (b : Text_Model.boost) : query := Term (zs f) (zs t) b.
Definition ex108 : query :=
  Bool [(Text_Model.Must, trm1 "f" "one" None);
        (Text_Model.Should, Bool [(Text_Model.Should, trm1 "g" "Two" (Some n25)); (Text_Model.MustNot, Fuzzy (zs "f") (zs "tree") (Some n25) None)] (Some n25));
        (Text_Model.Should, Phrase (zs "g") [(3, [zs "a"; zs "b"]); (6, [zs "c"])] 4 None);
        (Text_Model.MustNot, MultiTerm (zs "f") [(zs "x", None); (zs "y", None)] (Some n25));
        (Text_Model.Should, Prefix (zs "f") (zs "do") None); (Text_Model.Should, Wild (zs "g") (zs "D?g*") (Some n25));
        (Text_Model.Should, Range (mkRange (zs "g") (Some (zs "A")) (Some (zs "c")) true false) None);
        (Text_Model.Should, Range (mkRange (zs "f") None (Some (zs "c")) false true) None); (Text_Model.Must, All None)] None.
Definition txt108 : string := "+one ((g:Two^2.5 -tree~2.5)^2.5) g:""a|b <> <> c""~4 -""x|y""^2.5 do* g:D?g*^2.5 g:[A c} <c] +*".
Lemma kept1 or h c w : t_text (down (tk_set w 0 (List.length w) 1)) = w -> kept (reader or h c) (zs "f") w.
Proof. intros E. eexists. split; [reflexivity|]. split; [exact E|discriminate]. Qed.
Lemma kept2 or h c w : t_text (tk_set w 0 (List.length w) 1) = w -> kept (reader or h c) (zs "g") w.
Proof. intros E. eexists. split; [reflexivity|]. split; [exact E|discriminate]. Qed.
Ltac nokw := let H := fresh in intros H; repeat (destruct H as [H|H]; [discriminate H|]); discriminate H.
Ltac gw := split; [split; reflexivity|split; [nokw|vm_compute; lia]].
Ltac pw := split; [gw|reflexivity].
Lemma again108 or h c : again (reader or h c) bits1 ex108.
Proof.
  assert (R25 : reads (reader or h c) bits1 n25) by (split; [gw|reflexivity]).
  assert (KF : known (reader or h c) (zs "f")) by (split; [gw|reflexivity]). assert (KG : known (reader or h c) (zs "g")) by (split; [gw|reflexivity]).
  cbn [again ex108 trm1 fst snd reads_b]. split; [vm_compute; lia|]. split; [|exact Logic.I]. split.
  { split; [exact KF|]. split; [gw|]. split; [apply kept1; reflexivity|exact Logic.I]. }
  split. { split; [vm_compute; lia|]. split; [|exact R25]. split; [split; [exact KG|split; [gw|split; [apply kept2; reflexivity|exact R25]]]|]. split; [|exact Logic.I]. split; [exact KF|]. split; [gw|]. split; [apply kept1; reflexivity|]. split; [exact R25|]. split; [discriminate|]. split; [discriminate|exact Logic.I]. }
  split. { split; [exact KG|]. split; [vm_compute; lia|]. split; [split; [reflexivity|exact Logic.I]|]. split; [|split; [right; split; [gw|reflexivity]|exact Logic.I]].
    constructor; [split; [discriminate|]; cbn [snd]; repeat (constructor; [split; [pw|apply kept2; reflexivity]|]); constructor|]. constructor; [split; [discriminate|]; cbn [snd]; repeat (constructor; [split; [pw|apply kept2; reflexivity]|]); constructor|constructor]. }
  split. { split; [exact KF|]. split; [vm_compute; lia|]. split; [|exact R25]. repeat (constructor; [split; [pw|split; [apply kept1; reflexivity|reflexivity]]|]). constructor. }
  split. { split; [exact KF|]. split; [discriminate|]. split; [reflexivity|]. split; [split; [split; reflexivity|split; [reflexivity|vm_compute; lia]]|]. split; [intros _; reflexivity|exact Logic.I]. }
  split. { split; [exact KG|]. split; [split; [split; reflexivity|split; [reflexivity|vm_compute; lia]]|]. split; [intros _; reflexivity|]. split; [intros X; discriminate X|exact R25]. }
  split. { split; [exact KG|]. split; [split; [gw|intros X; discriminate X]|]. split; [split; [gw|intros X; discriminate X]|]. split; [left; discriminate|]. split; [reflexivity|exact Logic.I]. }
  split. { split; [exact KF|]. split; [exact Logic.I|]. split; [split; [gw|intros _; reflexivity]|]. split; [right; discriminate|]. split; [reflexivity|exact Logic.I]. }
  split; [|exact Logic.I]. split; [reflexivity|exact Logic.I].
Qed.
Example C108_example : to_s (Some (zs "f")) ex108 = Some (zs txt108) /\
  forall h c, again (reader true h c) bits1 ex108 /\ fits (reader true h c) (spell (Some (zs "f")) ex108) /\
    exists p', answers (reader true h c) (qp_new (reader true h c)) (zs txt108) (AnsQ (same_query (reader true h c) bits1 ex108)) p'.
Proof.
  assert (E : spell (Some (zs "f")) ex108 = zs txt108) by reflexivity. split; [vm_compute; reflexivity|]. intros h c.
  assert (FI : fits (reader true h c) (spell (Some (zs "f")) ex108)) by (rewrite E; apply Nat.leb_le; destruct h, c; vm_compute; reflexivity).
  split; [apply again108|]. split; [exact FI|]. rewrite <- E. apply (round_trip _ bits1 _ (zs "f")); [reflexivity|reflexivity|right; reflexivity|reflexivity|apply again108|exact FI].
Qed.

(* C109: other queries come back as others, without an error.  A query with nothing but a prohibited clause finds nothing; parsed again it finds all
   documents that do not have the clause. *)
Theorem C109_prohibited_refuted : forall cf bits df d p q, ready cf p -> q_def cf = [d] -> df = None \/ df = Some d -> q_or cf = true ->
  Text_Spec.fine q -> again cf bits q -> fits cf (spell df (Bool [(Text_Model.MustNot, q)] None)) ->
  exists s p', to_s df (Bool [(Text_Model.MustNot, q)] None) = Some s /\
    answers cf p s (AnsQ (bq_new [(MustNot, same_query cf bits q); (Must, q_new NAll)])) p' /\
    bq_new [(MustNot, same_query cf bits q); (Must, q_new NAll)] <> same_query cf bits (Bool [(Text_Model.MustNot, q)] None).
Proof.
  intros cf bits df d p q RE D HD OR F A FI. destruct (only_not cf bits df d HD D p q RE OR A FI) as [p' X]. exists (spell df (Bool [(Text_Model.MustNot, q)] None)), p'.
  split; [apply C106_spelled; split; [split; [exact F|exact Logic.I]|exact Logic.I]|]. split; [exact X|discriminate].
Qed.
Print Assumptions C109_prohibited_refuted.
(* A BooleanQuery of one other clause comes back as the clause, with the boost of the whole in place of its own. *)
Theorem C109_one_clause_refuted : forall cf bits df d p o q x, ready cf p -> q_def cf = [d] -> df = None \/ df = Some d -> q_or cf = true ->
  Text_Spec.fine q -> again cf bits q -> is_bool q = false -> finite x -> reads cf bits x -> o <> Text_Model.MustNot -> fits cf (spell df (Bool [(o, q)] (Some x))) ->
  exists s p', to_s df (Bool [(o, q)] (Some x)) = Some s /\ answers cf p s (AnsQ (Q (bits x) (unboosted (same_query cf bits q)))) p' /\
    Q (bits x) (unboosted (same_query cf bits q)) <> same_query cf bits (Bool [(o, q)] (Some x)).
Proof.
  intros cf bits df d p o q x RE D HD OR F A NB FX R NO FI. destruct (only_one cf bits df d HD D p o q (Some x) RE OR A R NO FI) as [p' X]. exists (spell df (Bool [(o, q)] (Some x))), p'.
  split; [apply C106_spelled; split; [split; [exact F|exact Logic.I]|exact FX]|]. split; [exact X|]. cbn [same_query with_boost]. destruct q; try discriminate; cbn; intros E; inversion E.
Qed.
Print Assumptions C109_one_clause_refuted.
(* A FuzzyQuery with the default similarity takes the next word for a similarity: the clause of that word is gone. *)
Theorem C109_fuzzy_refuted : forall cf bits d p f t w, ready cf p -> q_def cf = [d] -> q_or cf = true -> Text_Spec.clean f -> Text_Spec.clean t -> Text_Spec.clean d -> Text_Spec.clean w ->
  known cf f -> good_word t -> kept cf f t -> good_word w -> q_scanf cf w = None ->
  let q := Bool [(Text_Model.Should, Fuzzy f t None None); (Text_Model.Should, Term d w None)] None in
  fits cf (spell (Some d) q) ->
  exists s p', to_s (Some d) q = Some s /\ answers cf p s (AnsQ (same_query cf bits (Fuzzy f t None None))) p'.
Proof.
  intros cf bits d p f t w RE D OR CF CT CD CW K G KE GW SC q FI. destruct (fuzzy_eats cf bits (Some d) d (or_intror eq_refl) D p f t w RE OR K G KE GW eq_refl SC FI) as [p' X]. exists (spell (Some d) q), p'.
  split; [|exact X]. apply C106_spelled. cbn. tauto.
Qed.
Print Assumptions C109_fuzzy_refuted.
(* The WildcardQuery * of a field comes back as the query for all documents. *)
Theorem C109_star_refuted : forall cf df d p f, ready cf p -> q_def cf = [d] -> df = None \/ df = Some d -> Text_Spec.clean f -> known cf f -> q_lower cf [42] = [42] ->
  fits cf (spell df (Wild f [42] None)) ->
  exists s p', to_s df (Wild f [42] None) = Some s /\ answers cf p s (AnsQ (q_new NAll)) p'.
Proof.
  intros cf df d p f RE D HD CF K LO FI. destruct (star_all cf df d HD D p f RE K LO FI) as [p' X]. exists (spell df (Wild f [42] None)), p'. split; [|exact X]. apply C106_spelled. cbn. split; [exact CF|]. split; [|exact Logic.I]. constructor; [discriminate|constructor].
Qed.
Print Assumptions C109_star_refuted.
(* For a parser whose default is AND every optional clause comes back required. *)
Theorem C109_and_refuted : forall cf bits df d p cs, ready cf p -> q_def cf = [d] -> df = None \/ df = Some d -> q_or cf = false -> (2 <= List.length cs)%nat ->
  Text_Spec.fine (Bool cs None) -> Forall (fun c => is_bool (snd c) = false /\ again cf bits (snd c)) cs -> fits cf (spell df (Bool cs None)) ->
  exists s p', to_s df (Bool cs None) = Some s /\
    answers cf p s (AnsQ (bq_new (map (fun c => (match fst c with Text_Model.MustNot => MustNot | _ => Must end, same_query cf bits (snd c))) cs))) p'.
Proof.
  intros cf bits df d p cs RE D HD OR L F A FI. destruct (and_clauses cf bits df d HD D p cs RE OR L A FI) as [p' X]. exists (spell df (Bool cs None)), p'. split; [exact (C106_spelled df _ F)|].
  match goal with |- context [map ?g cs] => replace (map g cs) with (map (fun c => (and_of (occ_of (fst c)), same_query cf bits (snd c))) cs) end; [exact X|]. apply map_ext. intros [[| |] c]; reflexivity.
Qed.
Print Assumptions C109_and_refuted.
Definition asks (cf : qconf) (s : string) : option answer := option_map fst (qp_parse cf 2000 (qp_new cf) (z s)).
Example C109_examples :
  to_s (Some (zs "f")) (Bool [(Text_Model.MustNot, trm1 "f" "one" None)] None) = Some (zs "-one") /\
  asks (reader true false false) "-one" = Some (AnsQ (bq_new [(MustNot, trm "f" "one"); (Must, q_new NAll)])) /\
  to_s (Some (zs "f")) (Bool [(Text_Model.Must, trm1 "f" "one" (Some n25))] (Some n25)) = Some (zs "(+one^2.5)^2.5") /\
  asks (reader true false false) "(+one^2.5)^2.5" = Some (AnsQ (Q 25 (NTerm (z "f") (z "one")))) /\
  to_s (Some (zs "f")) (Bool [(Text_Model.Should, Fuzzy (zs "f") (zs "one") None None); (Text_Model.Should, trm1 "f" "two" None)] None) = Some (zs "one~ two") /\
  asks (reader true false false) "one~ two" = Some (AnsQ (q_new (NFuzzy (z "f") (z "one") half 512))) /\
  asks (reader true false false) "g:*" = Some (AnsQ (q_new NAll)) /\
  to_s (Some (zs "f")) (trm1 "g" "one two" None) = Some (zs "g:one two") /\
  asks (reader true false false) "g:one two" = Some (AnsQ (bq_new [(Should, trm "g" "one"); (Should, trm "f" "two")])) /\
  to_s (Some (zs "f")) (Phrase (zs "f") [(0, [zs "a"]); (0, [zs "b"])] 0 None) = Some (zs """a&b""") /\
  asks (reader true false false) """a&b""" = Some (AnsQ (trm "f" "a&b")) /\
  asks (reader false false false) "one two" = Some (AnsQ (bq_new [(Must, trm "f" "one"); (Must, trm "f" "two")])).
Proof. repeat split; vm_compute; reflexivity. Qed.
