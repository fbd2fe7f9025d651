(* Model of range filters, c/src/q_range.c: range_new (98-131), rfilt_get_bv_i (218-277), trfilt_get_bv_i with SET_DOCS (330-424) and
   the rewriting of range queries (503-514), on readers of one or of several segments: the term enumerators of Dict_Model and Mte_Model,
   the posting enumerators of Post_Model and Mtde_Model.  A bit vector is the list of its documents.  sscanf("%lg%n") and the doubles are
   parameters.  None: undefined behaviour. *)
From Verif Require Import Util Strcmp Dict_Model Post_Model Multi_Model Mte_Model Mtde_Model Expand_Model.
Open Scope Z_scope.

Inductive prdr := POne (g : psrc) | PMany (mp : option (list (list Z))) (gs : list psrc) (starts : list Z).
Inductive penum := DOne (e : tde) | DMany (m : mtd).
Definition rdr_of (r : prdr) : rdr := match r with POne g => ROne (dict_of g) | PMany mp gs _ => RMany mp (map dict_of gs) end.
(* ir->terms and skip_to *)
Definition terms_skip (r : rdr) (f : Z) (t : list Z) : option (option (list Z) * tenum) :=
  match r with
  | ROne s => do x <- ste_scan_to (fst s) (snd s) (ste_set_field (fst s) (snd s) ste_new f) t; Some (fst x, EOne (snd x))
  | RMany mp srcs => do y <- mte_new srcs mp f None; do x <- mte_skip_to srcs (snd y) t; Some (fst x, EMany (snd x))
  end.
(* ir->term_docs *)
Definition term_docs (r : prdr) : option penum :=
  match r with
  | POne g => Some (DOne (tde_new (g_frq (fst g)) (g_prx (fst g))))
  | PMany mp gs _ => do m <- mtde_new gs mp; Some (DMany m)
  end.
(* tde->seek_te: stde_seek_te, mtde_seek_te *)
Definition pe_seek_te (r : prdr) (te : tenum) (de : penum) : option penum :=
  match r, te, de with
  | POne g, EOne e, DOne d => Some (DOne (tde_seek_te (g_frq (fst g)) (s_skip (snd g)) d (e_ti e)))
  | PMany mp gs starts, EMany q, DMany m =>
      do m' <- seek_te false gs starts (mkMtd q (x_tdes m) (x_state m) (x_base m) (x_next m) (x_curr m));
      Some (DMany (mkMtd (x_te m) (x_tdes m') (x_state m') (x_base m') (x_next m') (x_curr m')))
  | _, _, _ => None
  end.
(* tde->next and tde->doc_num *)
Definition pe_next (r : prdr) (del : Z -> bool) (de : penum) : option (option Z * penum) :=
  match r, de with
  | POne g, DOne d => do x <- tde_next false del d; Some (if fst x then Some (p_doc (snd x)) else None, DOne (snd x))
  | PMany mp gs starts, DMany m => do x <- mtde_next false gs starts (S (S (length gs))) del m; Some (option_map fst (fst x), DMany (snd x))
  | _, _ => None
  end.
(* while (tde->next(tde)) bv_set(bv, tde->doc_num(tde)) *)
Fixpoint set_docs (fuel : nat) (r : prdr) (del : Z -> bool) (de : penum) (bv : list Z) : option (list Z * penum) :=
  match fuel with
  | O => None
  | S k => do x <- pe_next r del de; match fst x with Some d => set_docs k r del (snd x) (d :: bv) | None => Some (bv, snd x) end
  end.

(* the loop of both filters: dec tells what to do with a term *)
Inductive choice (A : Type) := Stop | Skip (a : A) | Take (a : A).
Arguments Stop {A}. Arguments Skip {A}. Arguments Take {A}.
Section LOOP.
  Variables (A : Type) (dec : A -> list Z -> option (choice A)) (r : prdr) (del : Z -> bool).
  Fixpoint scan_loop (fuel : nat) (a : A) (term : list Z) (te : tenum) (de : penum) (bv : list Z) : option (list Z) :=
    match fuel with
    | O => None
    | S k =>
        do c <- dec a term;
        match c with
        | Stop => Some bv
        | Skip a' => do x <- te_next (rdr_of r) te; match fst x with Some t => scan_loop k a' t (snd x) de bv | None => Some bv end
        | Take a' => do d <- pe_seek_te r te de;
                     do y <- set_docs fuel r del d bv;
                     do x <- te_next (rdr_of r) te; match fst x with Some t => scan_loop k a' t (snd x) (snd y) (fst y) | None => Some (fst y) end
        end
    end.
  Definition scan (fuel : nat) (a : A) (f : Z) (from : list Z) : option (list Z) :=
    do x <- terms_skip (rdr_of r) f from;
    match fst x with
    | None => Some []
    | Some t => do d <- term_docs r; scan_loop fuel a t (snd x) d []
    end.
End LOOP.

(* ---------- text ranges *)
Record range := mkRange { r_lower : option (list Z); r_upper : option (list Z); r_incl : bool; r_incu : bool }.
(* 98-131 range_new *)
Definition range_new (lower upper : option (list Z)) (incl incu : bool) : option range :=
  match lower, upper with
  | None, None => None
  | _, _ => if incl && (match lower with None => true | _ => false end) then None
            else if incu && (match upper with None => true | _ => false end) then None
            else if (match lower, upper with Some l, Some u => sltb u l | _, _ => false end) then None
            else Some (mkRange lower upper incl incu)
  end.
Definition lower_of (g : range) : list Z := match r_lower g with Some l => l | None => [] end.
(* the state is check_lower *)
Definition text_dec (g : range) (check : bool) (term : list Z) : option (choice bool) :=
  if negb check || sltb (lower_of g) term then
    match r_upper g with
    | Some u => if sleb u term && (negb (r_incu g) || sltb u term) then Some Stop else Some (Take false)
    | None => Some (Take false)
    end
  else Some (Skip check).
Definition rfilt_get_bv (fuel : nat) (r : prdr) (del : Z -> bool) (field : option Z) (g : range) : option (list Z) :=
  match field with
  | None => Some []
  | Some f => scan bool (text_dec g) r del fuel (negb (r_incl g || match r_lower g with None => true | _ => false end)) f (lower_of g)
  end.
(* 503-514 rq_rewrite: the ConstantScoreQuery is new, its boost 1.0 *)
Definition rq_rewrite (g : range) (boost : Z) : range * Z := (g, one).

(* ---------- numeric ranges *)
Section NUM.
  Variables (num : Type) (nle nlt : num -> num -> bool) (zero : num).
  (* sscanf(s, "%lg%n", &x, &len): both written, nothing written and 0, nothing written and EOF *)
  Inductive scanres := SOk (x : num) (len : Z) | SFail | SEof.
  Variable sscanf : list Z -> scanres.
  Definition schar (b : Z) : Z := if b <? 128 then b else b - 256.
  (* num may be indeterminate *)
  Notation cell := (option num * Z)%type.
  Definition put (c : cell) (t : list Z) : cell := match sscanf t with SOk x l => (Some x, l) | _ => c end.
  (* !s || (sscanf(s, ..., &x, &len) && strlen(s) == len) *)
  Definition bound (s : option (list Z)) (len : Z) : bool * num * Z :=
    match s with
    | None => (true, zero, len)
    | Some t => let '(x, l) := put (Some zero, len) t in
                ((match sscanf t with SFail => false | _ => true end) && (Z.of_nat (length t) =? l), match x with Some x => x | None => zero end, l)
    end.
  (* the condition of SET_DOCS for the bounds that there are *)
  Definition within_num (g : range) (lo up : num) (x : num) : bool :=
    (match r_lower g with None => true | Some _ => if r_incl g then nle lo x else nlt lo x end) &&
    (match r_upper g with None => true | Some _ => if r_incu g then nle x up else nlt x up end).
  Definition num_dec (cond : num -> bool) (c : cell) (term : list Z) : option (choice cell) :=
    if 57 <? schar (hd 0 term) then Some Stop
    else let c' := put c term in
         if snd c' =? Z.of_nat (length term) then
           match fst c' with Some x => Some (if cond x then Take c' else Skip c') | None => None end
         else Some (Skip c').
  Definition trfilt_get_bv (fuel : nat) (r : prdr) (del : Z -> bool) (field : option Z) (g : range) : option (list Z) :=
    let '(b1, lo, l1) := bound (r_lower g) 0 in
    let '(b2, up, l2) := (if b1 then bound (r_upper g) l1 else (false, zero, l1)) in
    if b1 && b2 then
      match field with
      | None => Some []
      | Some f => scan cell (num_dec (within_num g lo up)) r del fuel (None, l2) f [43; 46]
      end
    else rfilt_get_bv fuel r del field g.
End NUM.
