(* Model of MultiTermDocEnum and MultiTermPosEnum, c/src/index.c:3223-3443: the postings of a term over several segments.  The parts are
   the enumerators of Post_Model on the files of their segments, terms are found by the MultiTermEnum of Mte_Model.  Not modelled:
   sub-readers that are themselves over several segments (the third branch of mtde_seek_te), overflow of ptr after 2^31 calls. *)
From Verif Require Import Util Strcmp Dict_Model Post_Model Multi_Model Mte_Model.
Open Scope Z_scope.

Notation psrc := (seg * sfi)%type.
Definition dict_of (g : psrc) : src := (g_dict (fst g), snd g).
(* 3229-3241; x_next is ptr + 1, x_curr the index of curr_tde *)
Record mtd := mkMtd { x_te : mte; x_tdes : list tde; x_state : list bool; x_base : Z; x_next : nat; x_curr : option nat }.
Section M.
  Variables (pos : bool) (gs : list psrc) (starts : list Z) (mp : option (list (list Z))).
  Notation n := (length gs).
  (* 3243-3258 mtde_next_tde *)
  Definition next_set (st : list bool) (i : nat) : option nat := find (fun j => nth j st false) (seq i (n - i)).
  Definition next_tde (m : mtd) : option mtd :=
    match next_set (x_state m) (x_next m) with
    | Some j => do b <- nth_error starts j; Some (mkMtd (x_te m) (x_tdes m) (x_state m) b (S j) (Some j))
    | None => Some (mkMtd (x_te m) (x_tdes m) (x_state m) (x_base m) (S (Nat.max (x_next m) n)) None)
    end.
  Definition put_tde (m : mtd) (i : nat) (e : tde) : mtd := mkMtd (x_te m) (upd (x_tdes m) i e) (x_state m) (x_base m) (x_next m) (x_curr m).
  (* 3266-3288 mtde_seek_te: the infos of the term, from the last to the first *)
  Definition sub_seek (g : psrc) (e : tde) (t : ti) : tde :=
    if pos then stpe_seek_ti (g_frq (fst g)) (g_prx (fst g)) (s_skip (snd g)) e (Some t) else stde_seek_ti (g_frq (fst g)) (s_skip (snd g)) e (Some t).
  Fixpoint seek_all (tis : list (nat * ti)) (tdes : list tde) (st : list bool) : option (list tde * list bool) :=
    match tis with
    | [] => Some (tdes, st)
    | (i, t) :: r => do e <- nth_error tdes i; do g <- nth_error gs i; seek_all r (upd tdes i (sub_seek g e t)) (upd st i true)
    end.
  Definition seek_te (m : mtd) : option mtd :=
    do r <- seek_all (rev (q_tis (x_te m))) (x_tdes m) (repeat false n);
    next_tde (mkMtd (x_te m) (fst r) (snd r) 0 O (x_curr m)).
  (* 3290-3302 mtde_seek *)
  Definition mtde_seek (m : mtd) (f : Z) (term : list Z) : option mtd :=
    do q <- mte_set_field (map dict_of gs) mp (x_te m) f;
    do r <- mte_skip_to (map dict_of gs) q term;
    match fst r with
    | Some t => if seqb term t then seek_te (mkMtd (snd r) (x_tdes m) (x_state m) (x_base m) (x_next m) (x_curr m))
                else Some (mkMtd (snd r) (x_tdes m) (repeat false n) (x_base m) (x_next m) (x_curr m))
    | None => Some (mkMtd (snd r) (x_tdes m) (repeat false n) (x_base m) (x_next m) (x_curr m))
    end.
  (* the deletions of part i, del being those of the whole *)
  Definition local (del : Z -> bool) (i : nat) : option (Z -> bool) := do b <- nth_error starts i; Some (fun d => del (b + d)).
  (* 3304-3314 mtde_doc_num, mtde_freq *)
  Definition at_doc (m : mtd) (e : tde) : Z * Z := (x_base m + p_doc e, p_freq e).
  (* 3316-3328 mtde_next *)
  Fixpoint mtde_next (fuel : nat) (del : Z -> bool) (m : mtd) : option (option (Z * Z) * mtd) :=
    match fuel with
    | O => None
    | S k =>
        do r <- match x_curr m with
                | None => Some (None, m)
                | Some i => do e <- nth_error (x_tdes m) i; do dl <- local del i;
                            do x <- tde_next pos dl e;
                            let m1 := put_tde m i (snd x) in
                            Some (if fst x then Some (at_doc m1 (snd x)) else None, m1)
                end;
        match fst r with
        | Some d => Some (Some d, snd r)
        | None => do m2 <- next_tde (snd r);
                  match x_curr m2 with Some _ => mtde_next k del m2 | None => Some (None, m2) end
        end
    end.
  (* 3330-3354 mtde_read: acc is what has been read so far, req what is still asked for *)
  Fixpoint mtde_read (fuel : nat) (del : Z -> bool) (acc : list (Z * Z)) (req : nat) (m : mtd) : option (list (Z * Z) * mtd) :=
    match fuel with
    | O => None
    | S k =>
        match x_curr m with
        | None => Some (acc, m)
        | Some i =>
            do e <- nth_error (x_tdes m) i; do dl <- local del i;
            do x <- stde_read (S (Z.to_nat (p_df e - p_count e))) dl e req;
            let m1 := put_tde m i (snd x) in
            match fst x with
            | [] => do m2 <- next_tde m1; match x_curr m2 with None => Some (acc, m2) | Some _ => mtde_read k del acc req m2 end
            | l => let acc' := acc ++ map (fun y => (x_base m1 + fst y, snd y)) l in
                   let req' := (req - length l)%nat in
                   if (req' =? 0)%nat then Some (acc', m1) else mtde_read k del acc' req' m1
            end
        end
    end.
  (* 3356-3369 mtde_skip_to *)
  Fixpoint mtde_skip (fuel : nat) (del : Z -> bool) (target : Z) (m : mtd) : option (option (Z * Z) * mtd) :=
    match fuel with
    | O => None
    | S k =>
        match x_curr m with
        | None => Some (None, m)
        | Some i =>
            do e <- nth_error (x_tdes m) i; do g <- nth_error gs i; do dl <- local del i; do nx <- nth_error starts (x_next m);
            do x <- (if target <? nx then
                       do x <- tde_skip_to pos (g_frq (fst g)) (g_prx (fst g)) (s_skip (snd g)) dl e (target - x_base m);
                       Some (fst x, put_tde m i (snd x))
                     else Some (false, m));
            if fst x then do e' <- nth_error (x_tdes (snd x)) i; Some (Some (at_doc (snd x) e'), snd x)
            else do m2 <- next_tde (snd x); mtde_skip k del target m2
        end
    end.
  (* 3428-3432 mtpe_next_position *)
  Definition mtpe_next_position (m : mtd) : option (Z * mtd) :=
    match x_curr m with
    | None => None
    | Some i => do e <- nth_error (x_tdes m) i; do r <- next_position e; Some (fst r, put_tde m i (snd r))
    end.
  (* 3386-3424 mtxe_new, mtde_new; 3434-3443 mtpe_new: the enumerator of terms is on field 0 *)
  Definition mtde_new : option mtd :=
    do r <- mte_new (map dict_of gs) mp 0 None;
    Some (mkMtd (snd r) (map (fun g => tde_new (g_frq (fst g)) (g_prx (fst g))) gs) (repeat false n) 0 1 None).
End M.
