(* What a reader over several segments is to its users: one list of documents, each deleted or not, each with or without a norm. *)
From Verif Require Import Util Multi_Model.
Open Scope Z_scope.

Section Spec.
  Variable D : Type.
  (* fl_norm f: for every document its norm in field f, None where the field has no norms *)
  Record flat := mkFlat { fl_docs : list D; fl_del : list bool; fl_has : bool; fl_norm : Z -> list (option Z) }.
  Definition nth_z {A} (l : list A) (d : Z) : option A := if d <? 0 then None else nth_error l (Z.to_nat d).
  Definition in_range (s : flat) (d : Z) : bool := (0 <=? d) && (d <? Z.of_nat (length (fl_docs s))).
  Definition set_norm (v : Z) (x : option Z) : option Z := match x with None => None | Some _ => Some v end.
  Definition upd_with {A} (l : list A) (i : nat) (g : A -> A) : list A := match nth_error l i with Some x => upd l i (g x) | None => l end.
  Definition flat_step (s : flat) (o : mop) : mres D * flat :=
    match o with
    | MGet d => (MDoc (match nth_z (fl_del s) d with Some false => nth_z (fl_docs s) d | _ => None end), s)
    | MIsDeleted d => (MBool (match nth_z (fl_del s) d with Some b => b | None => false end), s)
    | MDelete d => (MUnit, if in_range s d then mkFlat (fl_docs s) (upd (fl_del s) (Z.to_nat d) true) true (fl_norm s) else s)
    | MUndelete => (MUnit, mkFlat (fl_docs s) (map (fun _ => false) (fl_del s)) false (fl_norm s))
    | MNumDocs => (MNum (Z.of_nat (length (filter negb (fl_del s)))), s)
    | MMaxDoc => (MNum (Z.of_nat (length (fl_docs s))), s)
    | MHasDeletions => (MBool (fl_has s), s)
    | MSetNorm d f v => (MUnit, mkFlat (fl_docs s) (fl_del s) (fl_has s) (fun g => if g =? f then upd_with (fl_norm s g) (Z.to_nat d) (set_norm v) else fl_norm s g))
    | MNorms f => (MBytes (map (fun x => match x with Some v => v | None => 0 end) (fl_norm s f)), s)
    end.
  Fixpoint flat_run (s : flat) (os : list mop) : list (mres D) :=
    match os with [] => [] | o :: t => let '(r, s') := flat_step s o in r :: flat_run s' t end.
  (* document numbers given by the caller exist (deleting anything else does nothing); fields exist in the reader (nf of them, any
     number if the fields of all segments agree) *)
  Definition op_ok (n : Z) (nf : option Z) (o : mop) : Prop :=
    match o with
    | MGet d | MIsDeleted d => 0 <= d < n
    | MSetNorm d f _ => 0 <= d < n /\ 0 <= f /\ match nf with None => True | Some k => f < k end
    | MNorms f => 0 <= f /\ match nf with None => True | Some k => f < k end
    | _ => True end.

  (* the segments put together *)
  Definition dels (s : sr D) : list bool := map (fun d => sr_is_deleted D s d) (seq 0 (length (r_docs s))).
  Definition norm_of (mp : option (list (list Z))) (f : Z) (i : nat) (s : sr D) : list (option Z) :=
    match fnum mp i f with
    | Some n => if 0 <=? n then match find_norm (r_norms s) n with Some b => map Some b | None => repeat None (length (r_docs s)) end
                else repeat None (length (r_docs s))
    | None => repeat None (length (r_docs s)) end.
  Fixpoint norms_of (mp : option (list (list Z))) (f : Z) (i : nat) (subs : list (sr D)) : list (option Z) :=
    match subs with [] => [] | s :: t => norm_of mp f i s ++ norms_of mp f (S i) t end.
  Definition put_together (mp : option (list (list Z))) (subs : list (sr D)) : flat :=
    mkFlat (concat (map r_docs subs)) (concat (map dels subs)) (existsb (fun s => match r_del s with None => false | Some _ => true end) subs)
           (fun f => norms_of mp f O subs).
  (* a segment: its deleted documents exist, a norm for every document *)
  Definition sr_ok (s : sr D) : Prop :=
    match r_del s with None => True | Some l => NoDup l /\ Forall (fun d => (d < length (r_docs s))%nat) l end /\
    Forall (fun x => length (snd x) = length (r_docs s)) (r_norms s).
  (* a map of field numbers has a row for every sub-reader and a column for every field *)
  Definition map_ok (nf : option Z) (mp : option (list (list Z))) (subs : list (sr D)) : Prop :=
    match mp, nf with
    | None, None => True
    | Some rows, Some k => length rows = length subs /\ Forall (fun r => Z.of_nat (length r) = k) rows
    | _, _ => False end.
End Spec.
