(* What a range filter selects. *)
From Verif Require Import Util Strcmp Dict_Model Post_Model Post_Spec Multi_Model Mte_Model Mte_Spec Mtde_Model Mtde_Spec Expand_Model Range_Model.
Open Scope Z_scope.

(* an index of one or several segments *)
Inductive pidx := PIOne (v : pseg) | PIMany (mp : option (list (list Z))) (vs : list pseg).
Definition pidx_open (i : pidx) (r : prdr) : Prop :=
  match i, r with
  | PIOne v, POne g => pseg_ok v /\ popened v g
  | PIMany mp vs, PMany mp' gs starts => mp' = mp /\ starts = pstarts 0 vs /\ Forall pseg_ok vs /\ Forall2 popened vs gs /\ field_in mp (length vs) 0
  | _, _ => False end.
Definition pidx_field (i : pidx) (f : Z) : Prop := match i with PIOne _ => True | PIMany mp vs => field_in mp (length vs) f end.
(* the postings of a term *)
Definition plook (i : pidx) (f : Z) (t : list Z) : list post := match i with PIOne v => postings (v_fs v) f t | PIMany mp vs => look mp vs f t end.

(* a document that is not deleted has a term that satisfies P *)
Definition has_term (i : pidx) (f : Z) (del : Z -> bool) (P : list Z -> Prop) (d : Z) : Prop :=
  del d = false /\ exists t p, P t /\ In p (plook i f t) /\ fst p = d.
Definition in_range (g : range) (t : list Z) : Prop :=
  match r_lower g with None => True | Some l => if r_incl g then sle l t else slt l t end /\
  match r_upper g with None => True | Some u => if r_incu g then sle t u else slt t u end.

(* the terms of a field *)
Definition pterms (v : pseg) (f : Z) : list (list Z) := match find (fun x => fst x =? f) (v_fs v) with Some (_, l) => map fst l | None => [] end.
Definition pvoc (i : pidx) (f : Z) (t : list Z) : Prop :=
  match i with
  | PIOne v => In t (pterms v f)
  | PIMany mp vs => exists k v m, nth_error vs k = Some v /\ fnum mp k f = Some m /\ 0 <= m /\ In t (pterms v m)
  end.
(* sscanf reads the whole of t as the number x *)
Definition number {num} (sscanf : list Z -> scanres num) (t : list Z) (x : num) : Prop := sscanf t = SOk num x (Z.of_nat (length t)).
Definition bound_is {num} (sscanf : list Z -> scanres num) (s : option (list Z)) (x : num) : Prop := match s with Some t => number sscanf t x | None => True end.
(* a number between bounds *)
Definition num_in {num} (nle nlt : num -> num -> bool) (g : range) (lo up x : num) : Prop :=
  match r_lower g with None => True | Some _ => if r_incl g then nle lo x = true else nlt lo x = true end /\
  match r_upper g with None => True | Some _ => if r_incu g then nle x up = true else nlt x up = true end.
(* the bounds a range may be made of *)
Definition bounds_ok (lower upper : option (list Z)) (incl incu : bool) : Prop :=
  (lower <> None \/ upper <> None) /\ (incl = true -> lower <> None) /\ (incu = true -> upper <> None) /\ (forall l u, lower = Some l -> upper = Some u -> sle l u).
