(* What users of Ferret::Index::Index rely on: the object is a list of documents, each call acts on the whole list, and a
   document keeps its number until documents are written again. *)
From Coq Require Import List ZArith Bool Arith Permutation.
From Verif Require Import Util Idx_Model.
Import ListNotations.

Definition live (l : list cell) : list doc := map fst (filter snd l).

(* the documents by number, with holes; settled: nothing has been written since numbers were last given out *)
Record abs := mkAbs { nums : list cell; settled : bool }.
Definition docs (a : abs) : list doc := live (nums a).

(* reading gives out numbers, the ones given out before if nothing has been written since *)
Definition read (a b : abs) : Prop :=
  settled b = true /\ docs b = docs a /\ (settled a = true -> nums b = nums a).

Definition without (p : doc -> bool) (l : list doc) : list doc := filter (fun x => negb (p x)) l.
(* the documents a new one replaces *)
Definition replaced (opt : options) (x y : doc) : bool :=
  match key opt with
  | NoKey => false
  | OneKey f => has_term f (val f x) y
  | Keys fs => forallb (fun f => has_term f (val f x) y) fs
  end.
Definition named (opt : options) (ts : list term) (y : doc) : bool := existsb (fun t => has_term (id_field opt) t y) ts.
Definition kills (ns : list nat) (l : list cell) : list cell := fold_left (fun l n => kill_at n l) ns l.

(* a call c of an object holding a gives v and leaves b *)
Definition step (opt : options) (a : abs) (c : call) (v : value) (b : abs) : Prop :=
  match c with
  | Add x => v = Unit /\ docs b = without (replaced opt x) (docs a) ++ [x]
  | Delete (inr t) => v = Unit /\ docs b = without (named opt [t]) (docs a)
  | Delete (inl n) => v = Unit /\ settled b = true /\ exists m, read a m /\ nums b = kill_at n (nums m)
  | DeleteBatch ids => v = Unit /\ exists m, read a m /\ docs b = without (named opt (names ids)) (live (kills (numbers ids) (nums m)))
  | QueryDelete q => v = Unit /\ settled b = true /\ exists m, read a m /\ nums b = kill_where q (nums m)
  | Update (inr t) x => v = Unit /\ docs b = without (named opt [t]) (docs a) ++ [x]
  | Update (inl n) x => v = Unit /\ exists m, read a m /\ docs b = live (kill_at n (nums m)) ++ [x]
  | BatchUpdate xs => v = Unit /\ docs b = without (named opt (map (val (id_field opt)) xs)) (docs a) ++ xs
  | QueryUpdate q change =>
      v = Unit /\ exists olds, Permutation olds (filter q (docs a)) /\ docs b = without q (docs a) ++ map change olds
  | Flush => v = Unit /\ read a b
  | Optimize => v = Unit /\ settled b = true /\ nums b = map (fun x => (x, true)) (docs a)
  | AddIndexes others => v = Unit /\ docs b = docs a ++ live (concat others)
  | FieldInfos => v = Unit /\ docs b = docs a
  | Size => read a b /\ v = Nat (length (docs a))
  | Search q =>
      read a b /\ exists hs, v = Hits hs /\ NoDup (map fst hs) /\
      (forall n x, In (n, x) hs <-> nth_error (nums b) n = Some (x, true) /\ q x = true)
  | Each => read a b /\ v = Docs (docs a)
  | DocOf t => read a b /\ v = Doc (find (has_term (id_field opt) t) (docs a))
  | DocAt n => read a b /\ exists x, nth_error (nums b) n = Some (x, true) /\ v = Doc (Some x)
  | Deleted n => read a b /\ v = Bool (match nth_error (nums b) n with Some (_, false) => true | _ => false end)
  | HasDeletions => read a b /\ v = Bool (negb (forallb snd (nums b)))
  | ToS => read a b /\ exists l, v = Docs l /\ (forallb snd (nums b) = true -> l = docs a)
  end.
(* the only errors: looking up a number that is not given out *)
Definition fails (a : abs) (c : call) (e : err) : Prop :=
  match c with
  | DocAt n => exists b, read a b /\
      match nth_error (nums b) n with
      | Some (_, true) => False
      | Some (_, false) => e = StateError
      | None => e = NoDoc
      end
  | _ => False
  end.

(* the results of a history are those of a list of documents *)
Inductive explains (opt : options) : abs -> list call -> list (res value) -> Prop :=
  | ex_nil a : explains opt a [] []
  | ex_ok a b c v cs rs : step opt a c v b -> explains opt b cs rs -> explains opt a (c :: cs) (Ok v :: rs)
  | ex_err a c e cs : fails a c e -> explains opt a (c :: cs) [Raise e].

(* the same with the calls of several objects, on one list *)
Inductive shared (opts : nat -> options) : abs -> list (nat * call) -> list (nat * res value) -> Prop :=
  | sh_nil a : shared opts a [] []
  | sh_ok a b i c v cs rs :
      step (opts i) a c v b -> shared opts b cs rs -> shared opts a ((i, c) :: cs) ((i, Ok v) :: rs).

(* what a writer may decide: merging keeps the documents and their order, a search lists each hit once *)
Definition good_policy (pol : policy) : Prop :=
  (forall l, live (p_merge pol l) = live l) /\ (forall l, 1 <= p_segs pol l) /\ (forall l, Permutation (p_rank pol l) l).

(* calls that work with the options *)
Definition supported (opt : options) (c : call) : Prop :=
  match c with
  | Update (inr _) _ => auto_flush opt = false
  | _ => True
  end.
(* calls that let go of the lock when :auto_flush is set, and speak of the newest commit *)
Definition sharing (c : call) : Prop :=
  match c with
  | Update (inr _) _ | AddIndexes _ | FieldInfos | DocAt _ | ToS => False
  | _ => True
  end.
(* calls that make sure of the reader alone, and the one that leaves a searcher *)
Definition by_reader (c : call) : bool :=
  match c with
  | Delete (inl _) | Size | Each | DocOf _ | Deleted _ | HasDeletions | ToS => true
  | DeleteBatch ids => negb (match numbers ids with [] => true | _ => false end)
  | _ => false
  end.
Definition by_searcher (c : call) : bool := match c with Search _ => true | _ => false end.
(* no object uses both *)
Definition one_way (cs : list (nat * call)) : Prop :=
  forall i c c', In (i, c) cs -> In (i, c') cs -> by_reader c = true -> by_searcher c' = false.

(* keys: a document whose key fields are indexed as they stand *)
Definition plain (f : nat) (x : doc) : Prop := toks f x = [val f x].
Definition key_fields (opt : options) : list nat := match key opt with NoKey => [] | OneKey f => [f] | Keys fs => fs end.
Definition key_of (opt : options) (x : doc) : list term := map (fun f => val f x) (key_fields opt).
(* calls that keep to the key: documents are added, or take the place of those with the id they have themselves *)
Definition by_key (opt : options) (c : call) : Prop :=
  match c with
  | Add x => forall f, In f (key_fields opt) -> plain f x
  | Update (inr t) x => key opt = OneKey (id_field opt) /\ plain (id_field opt) x /\ val (id_field opt) x = t
  | BatchUpdate xs =>
      key opt = OneKey (id_field opt) /\ (forall x, In x xs -> plain (id_field opt) x) /\ NoDup (map (val (id_field opt)) xs)
  | Update (inl _) _ | QueryUpdate _ _ | AddIndexes _ => False
  | _ => True
  end.
