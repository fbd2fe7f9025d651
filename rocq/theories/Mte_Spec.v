(* The terms of several segments: one sorted list without duplicates, each term with the sum of its document frequencies. *)
From Verif Require Import Util Strcmp Dict_Model Dict_Spec Multi_Model Mte_Model.
Open Scope Z_scope.

(* a segment: intervals of its files and its fields *)
Record sgm := mkSgm { g_int : nat; g_skip : Z; g_fs : list (Z * list entry) }.
Definition sgm_ok (x : sgm) : Prop := (1 <= g_int x)%nat /\ Z.of_nat (g_int x) < 2 ^ 31 /\ - 2 ^ 31 <= g_skip x < 2 ^ 31 /\ dict_ok (g_fs x).
Definition terms_in (mp : option (list (list Z))) (f : Z) (i : nat) (x : sgm) : list entry :=
  match fnum mp i f with Some n => if 0 <=? n then terms_of (g_fs x) n else [] | None => [] end.
(* the lists of the segments, one after the other *)
Fixpoint lists (mp : option (list (list Z))) (f : Z) (i : nat) (xs : list sgm) : list (list entry) :=
  match xs with [] => [] | x :: t => terms_in mp f i x :: lists mp f (S i) t end.

(* every term once, in order *)
Fixpoint insert (t : list Z) (l : list (list Z)) : list (list Z) :=
  match l with
  | [] => [t]
  | x :: r => match scmp t x with Lt => t :: l | Eq => l | Gt => x :: insert t r end
  end.
Definition union (ls : list (list entry)) : list (list Z) := fold_right insert [] (map fst (concat ls)).
(* the sum of the document frequencies of t *)
Definition freq_in (l : list entry) (t : list Z) : Z := match find (fun e => seqb (fst e) t) l with Some e => ti_df (snd e) | None => 0 end.
Definition freq_sum (ls : list (list entry)) (t : list Z) : Z := fold_right (fun l z => freq_in l t + z) 0 ls.

(* a cursor: the field and how many of its terms are behind it *)
Definition go (ls : list (list entry)) (f : Z) (i : nat) : qres * (Z * nat) :=
  match nth_error (union ls) i with
  | Some t => (QTerm (Some (t, freq_sum ls t)), (f, S i))
  | None => (QTerm None, (f, S (length (union ls))))
  end.
(* how many terms are less than t *)
Definition below (l : list (list Z)) (t : list Z) : nat := length (filter (fun x => sltb x t) l).
Definition qspec_step (mp : option (list (list Z))) (xs : list sgm) (c : Z * nat) (o : qop) : qres * (Z * nat) :=
  let ls := lists mp (fst c) O xs in
  match o with
  | QField g => (QDone, (g, O))
  | QNext => go ls (fst c) (snd c)
  | QScan t => go ls (fst c) (below (union ls) t)
  end.
Fixpoint qspec_run (mp : option (list (list Z))) (xs : list sgm) (c : Z * nat) (os : list qop) : list qres :=
  match os with [] => [] | o :: t => let '(r, c') := qspec_step mp xs c o in r :: qspec_run mp xs c' t end.
(* fields given by the caller exist: columns of the map *)
Definition field_in (mp : option (list (list Z))) (n : nat) (f : Z) : Prop :=
  match mp with None => True | Some rows => length rows = n /\ Forall (fun r => 0 <= f < Z.of_nat (length r)) rows end.
Definition qop_ok (mp : option (list (list Z))) (n : nat) (o : qop) : Prop := match o with QField f => field_in mp n f | _ => True end.
(* the files of a segment, written and opened *)
Definition opened (x : sgm) (s : src) : Prop := write_dict (Z.of_nat (g_int x)) (g_skip x) (g_fs x) = Some (fst s) /\ sfi_open (fst s) = Some (snd s).
