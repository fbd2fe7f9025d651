(* What the scorer of a term or of several terms is to its users: a cursor on the documents that have one, with the frequencies. *)
From Verif Require Import Util Strcmp Dict_Model Post_Model Post_Spec Multi_Model Mte_Model Mte_Spec Mtde_Model Mtde_Spec Expand_Model Range_Model Range_Spec Tsc_Model.
From Coq Require Import Sorting.Permutation.
Open Scope Z_scope.

(* a cursor on a list of documents, each with something *)
Fixpoint from {B} (d : Z) (l : list (Z * B)) : list (Z * B) := match l with [] => [] | x :: t => if fst x <? d then from d t else l end.
Definition s_take {B} (l : list (Z * B)) : option (Z * B) * list (Z * B) := match l with [] => (None, []) | x :: t => (Some x, t) end.
Definition s_step {B} (l : list (Z * B)) (o : sop) : option (Z * B) * list (Z * B) := match o with SNext => s_take l | SSkip d => s_take (from d l) end.
Fixpoint s_run {B} (l : list (Z * B)) (os : list sop) : list (option (Z * B)) := match os with [] => [] | o :: t => fst (s_step l o) :: s_run (snd (s_step l o)) t end.
(* documents are numbered from 0 *)
Definition sop_ok (o : sop) : Prop := match o with SNext => True | SSkip d => 0 <= d end.

(* the documents of a term that are not deleted, with the frequency of the term *)
Definition live (del : Z -> bool) (l : list post) : list (Z * Z) := map (fun p => (fst p, freq p)) (filter (fun p => negb (del (fst p))) l).
Definition hits (i : pidx) (del : Z -> bool) (f : option Z) (t : list Z) : list (Z * Z) := match f with Some n => live del (plook i n t) | None => [] end.

(* several lists of documents as one: every document once, with the frequencies in all lists that have it *)
Fixpoint parts (k : nat) (ls : list (list (Z * Z))) (d : Z) : list (nat * Z) :=
  match ls with [] => [] | l :: t => match find (fun x => fst x =? d) l with Some x => (k, snd x) :: parts (S k) t d | None => parts (S k) t d end end.
Definition merge_of (ls : list (list (Z * Z))) (m : list (Z * list (nat * Z))) : Prop :=
  StronglySorted (fun x y => fst x < fst y) m /\ forall d c, In (d, c) m <-> c = parts O ls d /\ c <> [].
(* the frequencies may come in any order *)
Definition res_eq (a b : option (Z * list (nat * Z))) : Prop :=
  match a, b with Some x, Some y => fst x = fst y /\ Permutation (snd x) (snd y) | None, None => True | _, _ => False end.
(* a scorer of several terms knows them by the numbers of its wrappers *)
Definition named (names : list nat) (x : Z * list (nat * Z)) : Z * list (nat * Z) := (fst x, map (fun c : nat * Z => (nth (fst c) names O, snd c)) (snd x)).
(* the TermInfosReader of an index of one segment, after any lookups *)
Inductive tir_used (r : prdr) : tir -> Prop :=
| U_open : tir_used r tir_open
| U_look : forall g t f x z t', r = POne g -> tir_used r t -> tir_get_ti_field (g_dict (fst g)) (snd g) t O f x = Some (z, t') -> tir_used r t'.
(* the documents of a cursor *)
Definition same_docs {A B} (a : option (Z * A)) (b : option (Z * B)) : Prop := option_map fst a = option_map fst b.
(* a query made of the terms that satisfy P finds the documents that have one *)
Definition finds (i : pidx) (r : prdr) (del : Z -> bool) (f : Z) (m : mtq) (P : list Z -> Prop) : Prop :=
  exists M : list (Z * list (nat * Z)), StronglySorted (fun x y => fst x < fst y) M /\ (forall d, In d (map fst M) <-> has_term i f del P d) /\
    exists l sc, query_terms m = Some l /\ multi_tw_scorer r (Some f) (map fst l) = Some sc /\
      match sc with
      | None => M = []
      | Some (s, _) => forall os, Forall sop_ok os -> exists res, multi_run r del s os = Some res /\ Forall2 same_docs res (s_run M os)
      end.
(* at most n terms of a field satisfy P *)
Definition at_most (n : nat) (i : pidx) (f : Z) (P : list Z -> Prop) : Prop := forall ts, NoDup ts -> (forall t, In t ts -> pvoc i f t /\ P t) -> (length ts <= n)%nat.
