(* Which documents a query asks for. *)
From Coq Require Import Sorting.Sorted.
From Verif Require Import Util Codec_Model Strcmp Seg_Model Dict_Model Token_Model Fields_Model Query_Model Expand_Model Expand_Spec Fuzzy_Model Fuzzy_Spec Range_Model Range_Spec Tsc_Model Invert_Spec Find_Spec Look_Model.
From Verif Require Phrase_Spec.
Open Scope Z_scope.

(* clauses, each with what it says: all required ones hold, no prohibited one does, and if none is required an optional one holds or all there
   are are prohibited *)
Definition comb (ms : list (occur * Prop)) : Prop :=
  (forall m, In m ms -> fst m = Must -> snd m) /\ (forall m, In m ms -> fst m = MustNot -> ~ snd m) /\
  ((exists m, In m ms /\ fst m = Must) \/ (exists m, In m ms /\ fst m = Should /\ snd m) \/ (ms <> [] /\ forall m, In m ms -> fst m = MustNot)).
(* a term near another: the similarity of its edit distance is greater than min *)
Definition near (sim : fscore -> Z) (term : list Z) (pre_len : nat) (min : Z) (t : list Z) : Prop :=
  if (length term <=? pre_len)%nat then term = t
  else t <> [] /\ firstn pre_len t = firstn pre_len term /\
       exists k, distance term t k /\ min < sim (Sim (Z.of_nat k) (Z.min (Z.of_nat (length term)) (Z.of_nat (length t)))).
(* the terms of a MultiTermQuery *)
Definition words (m : mtq) : list (list Z) := match query_terms m with Some l => map fst l | None => [] end.
Section SAT.
  Variable sim : fscore -> Z.
  Variable has : list Z -> (list Z -> Prop) -> Prop.   (* there is a term in a field that satisfies ... *)
  Variable hasp : list Z -> Z -> list (Z * list (list Z)) -> Prop.   (* a phrase is there *)
  Fixpoint sat (q : uq) : Prop :=
    match q with
    | UTerm f t => has f (eq t)
    | UPrefix f p _ => has f (fun t => exists u, t = p ++ u)
    | UWild f p _ => has f (glob p)
    | UFuzzy f t pl min _ => has f (near sim t pl min)
    | URange f g => has f (in_range g)
    | UPhrase f slop ps => hasp f slop ps
    | UAll => True
    | UBool cs => comb (map (fun c : occur * uq => (fst c, sat (snd c))) cs)
    | UMulti f m => has f (fun t => In t (words m))
    | UBits f g => has f (in_range g)
    end.
End SAT.
(* the condition of Bool_Spec: no query with several required clauses is asked to skip *)
Definition reqs {X} (cs : list (occur * X)) : nat := length (filter (fun c : occur * X => match fst c with Must => true | _ => false end) cs).
Fixpoint calm (skip : bool) (q : uq) : bool :=
  match q with
  | UBool cs =>
      negb ((2 <=? reqs cs)%nat && skip) &&
      forallb (fun c : occur * uq => match fst c with Must => calm (skip || (2 <=? reqs cs)%nat) (snd c) | MustNot => calm true (snd c) | Should => if (reqs cs =? 0)%nat then calm skip (snd c) else true end) cs
  | _ => true
  end.
Section LIMITS.
  Variables (calc : Z -> Z -> Z) (sim : fscore -> Z).
  Variable few : nat -> list Z -> (list Z -> Prop) -> Prop.   (* at most so many terms of a field satisfy ... *)
  Variable last : list Z -> (list Z -> Prop) -> Prop.         (* the last document has a term in a field that satisfies ... *)
  Variable ordered : list Z -> Prop.                          (* positions in a field do not go back *)
  Variable starts : Z -> list Z -> Prop.                      (* no word of a field is before a position *)
  Variable mx : nat.
  (* a similarity with the distance it permits *)
  Definition sim_ok (min : Z) : Prop := sim Zero <= min /\ forall d l, calc min l < d -> sim (Sim d l) <= min.
  (* what is asked of the queries: the numbers of terms they may have suffice; ranges do not fill the last word of a bit vector; clauses that
     are all prohibited leave room for one more; the documents have their words in order, if they are searched for phrases; the words of a sloppy phrase are all different and
     one of them has room for what is before it in the phrase; a phrase of one
     position has no more words for it than a MultiTermQuery; the queue of a MultiTermQuery is one *)
  Fixpoint limits (q : uq) : Prop :=
    match q with
    | UPrefix f p k => (1 <= k)%nat /\ (p <> [] \/ few 0 f (eq [])) /\ few k f (fun t => exists u, t = p ++ u)
    | UWild f p k => snd (split_wild p) = [] \/ (1 <= k)%nat /\ (length (fst (split_wild p)) < 255)%nat /\ (fst (split_wild p) <> [] \/ few 0 f (eq [])) /\ few k f (glob p)
    | UFuzzy f t pl min k => (length t <= pl)%nat \/ (1 <= k)%nat /\ sim_ok min /\ few k f (near sim t pl min)
    | URange f g | UBits f g => (mx < 128 \/ mx mod 32 <> 0)%nat \/ ~ last f (in_range g)
    | UPhrase f _ [] => True
    | UPhrase f _ [(_, ts)] => length ts = 1%nat \/ (length ts <= MULTI_MAX)%nat /\ ~ In [] ts
    | UPhrase f slop ps => ordered f /\ (slop = 0 \/ NoDup (flat_map snd ps) /\ exists p, In p ps /\ starts (fst p) f)
    | UMulti _ m => query_terms m <> None
    | UBool cs => (fix go (l : list (occur * uq)) : Prop := match l with [] => True | c :: t => limits (snd c) /\ go t end) cs /\
                  ((exists c, In c cs /\ fst c <> MustNot) \/ (length cs < MAX_CLAUSES)%nat)
    | _ => True
    end.
End LIMITS.
(* a field of the index by its name *)
Section DOCS.
  Variable ana : list Z -> list Z -> list token.
  Variables (max : Z) (F : field_infos).
  Definition doc_has (d : document) (f : list Z) (P : list Z -> Prop) : Prop := match fis_get F f with Some (n, _) => doc_with ana max F n P d | None => False end.
  Definition field_few (docs : list document) (k : nat) (f : list Z) (P : list Z -> Prop) : Prop := match fis_get F f with Some (n, _) => few ana max F k n docs P | None => True end.
  (* words at places that are moved by at most slop against each other from where the phrase has them *)
  Definition doc_phrase (d : document) (f : list Z) (slop : Z) (ps : list (Z * list (list Z))) : Prop :=
    ps <> [] /\ match fis_get F f with
                | Some (n, _) => exists xs, Forall2 (fun (p : Z * list (list Z)) b => exists o, In o (occs_in ana max F n d) /\ In (o_text o) (snd p) /\ o_pos o = b + fst p) ps xs /\ Phrase_Spec.apart slop xs
                | None => False
                end.
  (* without slop: words at places that are as far from each other as the offsets in the phrase *)
  Definition doc_exact (d : document) (f : list Z) (ps : list (Z * list (list Z))) : Prop :=
    ps <> [] /\ match fis_get F f with Some (n, _) => exists b, Forall (fun p : Z * list (list Z) => exists o, In o (occs_in ana max F n d) /\ In (o_text o) (snd p) /\ o_pos o = b + fst p) ps | None => False end.
  Definition field_starts (docs : list document) (z : Z) (f : list Z) : Prop :=
    match fis_get F f with Some (n, _) => forall d, In d docs -> Forall (fun a : occ => z <= o_pos a) (occs_in ana max F n d) | None => True end.
  Definition field_ordered (docs : list document) (f : list Z) : Prop :=
    match fis_get F f with Some (n, _) => forall d, In d docs -> StronglySorted (fun a b : occ => o_pos a <= o_pos b) (occs_in ana max F n d) | None => True end.
  (* the last number stands for a document with such a term *)
  Definition last_has (slots : list (option document)) (f : list Z) (P : list Z -> Prop) : Prop := exists x, nth_error slots (length slots - 1) = Some (Some x) /\ doc_has x f P.
End DOCS.
(* index.c fis_get_field_num *)
Definition field_num (F : field_infos) (f : list Z) : option Z := option_map (fun x : nat * field_info => Z.of_nat (fst x)) (fis_get F f).
