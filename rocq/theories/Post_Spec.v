(* What the postings of a term are to their users: a list of documents in increasing order, each with its positions, and a cursor. *)
From Verif Require Import Util Codec_Spec Strcmp Dict_Model Dict_Spec Post_Model.
Open Scope Z_scope.

(* documents below 2^30 (twice their distance is an int), positions and frequencies are ints *)
Definition post_ok (p : post) : Prop := 0 <= fst p < 2 ^ 30 /\ Forall (fun x => 0 <= x < 2 ^ 31) (snd p) /\ freq p < 2 ^ 31.
(* the distances in the skip data are unsigned ints: 5 bytes for every position and 10 for every document fit them *)
Definition plist_ok (l : list post) : Prop :=
  Forall post_ok l /\ StronglySorted (fun a b => fst a < fst b) l /\
  Z.of_nat (5 * length (concat (map snd l)) + 10 * length l) < 2 ^ 32.
Definition inv_ok (fs : list (Z * list (list Z * list post))) : Prop :=
  Forall (fun f => 0 <= fst f < 2 ^ 31 /\ Forall (fun x => term_ok (fst x) /\ plist_ok (snd x)) (snd f) /\ StronglySorted (fun a b => slt (fst a) (fst b)) (snd f) /\
                   Z.of_nat (length (snd f)) < 2 ^ 31 - 1) fs /\
  NoDup (map fst fs) /\ Z.of_nat (length fs) < 2 ^ 31 /\ Z.of_nat (length (concat (map snd fs))) < 2 ^ 48 /\
  (* the files stay below 2^62 bytes *)
  (let all := concat (map snd (concat (map snd fs))) in Z.of_nat (5 * length (concat (map snd all)) + 40 * length all) < 2 ^ 62).
Definition postings (fs : list (Z * list (list Z * list post))) (n : Z) (t : list Z) : list post :=
  match find (fun x => fst x =? n) fs with
  | Some (_, l) => match find (fun x => seqb (fst x) t) l with Some (_, ps) => ps | None => [] end
  | None => [] end.

(* operations; del is the set of deleted documents at the time of the operation *)
Inductive pop := PSeek (f : Z) (t : list Z) | PNext (del : Z -> bool) | PSkip (del : Z -> bool) (target : Z) | PRead (del : Z -> bool) (n : nat) | PPos.
Inductive pres := PUnit | PDoc (d : option (Z * Z)) | PDocs (l : list (Z * Z)) | PPosn (p : Z).

(* the first posting behind the cursor that satisfies ok, and the cursor behind it *)
Fixpoint first_ok (ok : Z -> bool) (l : list post) : option (post * list post) :=
  match l with [] => None | p :: t => if ok (fst p) then Some (p, t) else first_ok ok t end.
Fixpoint take_live (n : nat) (del : Z -> bool) (l : list post) : list (Z * Z) * list post :=
  match n with
  | O => ([], l)
  | S n' => match first_ok (fun d => negb (del d)) l with
            | None => ([], [])
            | Some (p, t) => let '(r, t') := take_live n' del t in ((fst p, freq p) :: r, t')
            end
  end.
(* a cursor: the postings still to come, the positions still to come *)
Definition pcur := (list post * list Z)%type.
Definition spec_move (ok : Z -> bool) (c : pcur) : pres * pcur :=
  match first_ok ok (fst c) with
  | Some (p, t) => (PDoc (Some (fst p, freq p)), (t, snd p))
  | None => (PDoc None, ([], []))
  end.
Definition pspec_step (fs : list (Z * list (list Z * list post))) (c : pcur) (o : pop) : pres * pcur :=
  match o with
  | PSeek f t => (PUnit, (postings fs f t, []))
  | PNext del => spec_move (fun d => negb (del d)) c
  | PSkip del target => spec_move (fun d => negb (del d) && (target <=? d)) c
  | PRead del n => let '(r, t) := take_live n del (fst c) in (PDocs r, (t, []))
  | PPos => match snd c with x :: r => (PPosn x, (fst c, r)) | [] => (PPosn (-1), c) end
  end.
Fixpoint pspec_run (fs : list (Z * list (list Z * list post))) (c : pcur) (os : list pop) : list pres :=
  match os with [] => [] | o :: t => let '(r, c') := pspec_step fs c o in r :: pspec_run fs c' t end.

(* the same on the files of a segment, with a TermInfosReader t used by one thread *)
Definition doc_of (r : bool * tde) : pres := PDoc (if fst r then Some (p_doc (snd r), p_freq (snd r)) else None).
Definition tde_step (pos : bool) (g : seg) (s : sfi) (st : tir * tde) (o : pop) : option (pres * (tir * tde)) :=
  let '(t, e) := st in
  match o with
  | PSeek f term => do r <- tir_get_ti_field (g_dict g) s t O f term; Some (PUnit, (snd r, tde_seek pos (g_frq g) (g_prx g) (s_skip s) e (fst r)))
  | PNext del => do r <- tde_next pos del e; Some (doc_of r, (t, snd r))
  | PSkip del target => do r <- tde_skip_to pos (g_frq g) (g_prx g) (s_skip s) del e target; Some (doc_of r, (t, snd r))
  | PRead del n => do r <- stde_read (S (Z.to_nat (p_df e - p_count e))) del e n; Some (PDocs (fst r), (t, snd r))
  | PPos => do r <- next_position e; Some (PPosn (fst r), (t, snd r))
  end.
Fixpoint tde_run (pos : bool) (g : seg) (s : sfi) (st : tir * tde) (os : list pop) : option (list pres) :=
  match os with
  | [] => Some []
  | o :: t => do r <- tde_step pos g s st o; do q <- tde_run pos g s (snd r) t; Some (fst r :: q)
  end.
(* term_docs has no positions, term_positions no bulk read *)
Definition pop_ok (pos : bool) (o : pop) : Prop := match o with PPos => pos = true | PRead _ _ => pos = false | _ => True end.

(* ---------- an enumerator beside deletions through the reader it was made from *)
Inductive rop := RDelete (d : Z) | RUndelete | ROp (o : (Z -> bool) -> pop).
(* what the enumerator does, its deletions being those behind the pointer it kept *)
Fixpoint resolve (r : srd) (kept : option nat) (os : list rop) : option (list pop) :=
  match os with
  | [] => Some []
  | RDelete d :: t => do r' <- sr_delete r d; resolve r' kept t
  | RUndelete :: t => resolve (sr_undelete_all r) kept t
  | ROp o :: t => do del <- kept_del r kept; do q <- resolve r kept t; Some (o del :: q)
  end.
(* what it should do: dl are the documents that are deleted now *)
Fixpoint spec_resolve (dl : list Z) (os : list rop) : list pop :=
  match os with
  | [] => []
  | RDelete d :: t => spec_resolve (d :: dl) t
  | RUndelete :: t => spec_resolve [] t
  | ROp o :: t => o (fun d => existsb (Z.eqb d) dl) :: spec_resolve dl t
  end.

(* reading all of a term: every document, all its positions, and the end *)
Definition walk (ps : list post) : list pop := flat_map (fun p => PNext (fun _ => false) :: repeat PPos (length (snd p))) ps ++ [PNext (fun _ => false)].
Definition walked (ps : list post) : list pres := flat_map (fun p : post => PDoc (Some (fst p, freq p)) :: map PPosn (snd p)) ps ++ [PDoc None].
