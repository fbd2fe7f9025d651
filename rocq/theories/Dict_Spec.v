(* What a dictionary is to its users: for every field a sorted list of terms, a cursor on it, and lookups. *)
From Verif Require Import Util Codec_Spec Strcmp Dict_Model.
Open Scope Z_scope.

Notation entry := (list Z * ti)%type.
Definition entry0 : entry := ([], ti0).
(* terms are C strings shorter than MAX_WORD_SIZE; numbers fit their types *)
Definition term_ok (t : list Z) : Prop := Forall (fun b => 0 < b < 256) t /\ (length t < 255)%nat.
Definition ti_ok (t : ti) : Prop := 0 <= ti_df t < 2 ^ 31 /\ 0 <= ti_frq t < 2 ^ 63 /\ 0 <= ti_prx t < 2 ^ 63 /\ 0 <= ti_skip t < 2 ^ 63.
Definition entry_ok (e : entry) : Prop := term_ok (fst e) /\ ti_ok (snd e).
(* the pointers of successive terms do not decrease *)
Definition ti_le (a b : ti) : Prop := ti_frq a <= ti_frq b /\ ti_prx a <= ti_prx b.
Definition field_ok (l : list entry) : Prop :=
  Forall entry_ok l /\ StronglySorted (fun a b => slt (fst a) (fst b)) l /\ StronglySorted (fun a b => ti_le (snd a) (snd b)) l /\
  Z.of_nat (length l) < 2 ^ 31 - 1.
Definition dict_ok (fs : list (Z * list entry)) : Prop :=
  Forall (fun f => 0 <= fst f < 2 ^ 31 /\ field_ok (snd f)) fs /\ NoDup (map fst fs) /\ Z.of_nat (length fs) < 2 ^ 31 /\
  Z.of_nat (length (concat (map snd fs))) < 2 ^ 48.
Definition terms_of (fs : list (Z * list entry)) (n : Z) : list entry :=
  match find (fun x => fst x =? n) fs with Some (_, l) => l | None => [] end.

(* what is stored of a TermInfo: the skip offset only from skip_interval documents on *)
Definition same_ti (skip : Z) (a b : ti) : Prop :=
  ti_df a = ti_df b /\ ti_frq a = ti_frq b /\ ti_prx a = ti_prx b /\ (skip <= ti_df b -> ti_skip a = ti_skip b).

(* operations on an enumerator *)
Inductive dop := DField (f : Z) | DNext | DScan (t : list Z) | DGet (n : nat) | DLookup (t : list Z).
Inductive dres := DDone | DTerm (t : option (list Z)) | DInfo (i : option ti).
Definition dres_eq (skip : Z) (a b : dres) : Prop :=
  match a, b with
  | DInfo (Some x), DInfo (Some y) => same_ti skip x y
  | _, _ => a = b
  end.

(* the cursor: the field, and how many of its terms are behind it (one more than there are: at the end) *)
Definition cursor := (Z * nat)%type.
(* the place of the first term that is not less than t *)
Definition first_ge (l : list entry) (t : list Z) : nat := length (filter (fun e => sltb (fst e) t) l).
Definition at_end (l : list entry) : nat := S (length l).
Definition spec_step (fs : list (Z * list entry)) (c : cursor) (o : dop) : dres * cursor :=
  let '(f, p) := c in
  let l := terms_of fs f in
  let go i := match nth_error l i with Some e => (Some e, (f, S i)) | None => (None, (f, at_end l)) end in
  match o with
  | DField g => (DDone, (g, O))
  | DNext => let '(r, c') := go p in (DTerm (option_map fst r), c')
  | DScan t => if (length l =? 0)%nat then (DTerm None, c) else let '(r, c') := go (first_ge l t) in (DTerm (option_map fst r), c')
  | DGet n => match nth_error l n with Some e => (DTerm (Some (fst e)), (f, S n)) | None => (DTerm None, c) end
  | DLookup t =>
      ( DInfo (option_map snd (find (fun e => seqb (fst e) t) l)),
        if (length l =? 0)%nat then c else snd (go (first_ge l t)) )
  end.
Fixpoint spec_run (fs : list (Z * list entry)) (c : cursor) (os : list dop) : list dres :=
  match os with [] => [] | o :: t => let '(r, c') := spec_step fs c o in r :: spec_run fs c' t end.

(* the same on the files *)
Definition ste_step (f : dfiles) (s : sfi) (e : ste) (o : dop) : option (dres * ste) :=
  match o with
  | DField g => Some (DDone, ste_set_field f s e g)
  | DNext => do r <- ste_next (s_skip s) e; Some (DTerm (fst r), snd r)
  | DScan t => do r <- ste_scan_to f s e t; Some (DTerm (fst r), snd r)
  | DGet n => do r <- ste_get_term f s e (Z.of_nat n); Some (DTerm (fst r), snd r)
  | DLookup t => do r <- tir_get_ti f s e t; Some (DInfo (fst r), snd r)
  end.
Fixpoint ste_run (f : dfiles) (s : sfi) (e : ste) (os : list dop) : option (list dres) :=
  match os with
  | [] => Some []
  | o :: t => do r <- ste_step f s e o; do q <- ste_run f s (snd r) t; Some (fst r :: q)
  end.
