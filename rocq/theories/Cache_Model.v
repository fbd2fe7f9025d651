(* Model of how bit vectors of filters are kept per filter and reader, and let go: c/src/filter.c filt_destroy_i (12-16), filt_get_bv (24-38), c/src/index.c co_destroy, co_create (187-206),
   ir_close (4142-4172) as far as its cache goes, ir_add_cache (4178-4183), c/src/hash.c h_clear and h_destroy (212-252), h_rem (277-296), h_set (363-387) on tables of cache objects.
   Filters and readers have addresses, which are given to others when they are gone; tables and cache objects have numbers that are never used twice, so that any use of a freed one is seen: it is
   undefined (None).  What a filter finds in a reader depends on the filter, the reader and the deletions of the reader so far (bits).  A filter that asks for the bits of other filters on the way
   is left out, as are the probe sequences of hash tables (Hash_Model): in a table that is being cleared h_rem may fail to find the entry, as slots before it are empty already, but that entry is
   cleared next anyway. *)
From Verif Require Import Util RamDir_Model.
Open Scope nat_scope.

Fixpoint at_key {A} (k : nat) (l : list (nat * A)) : option A := match l with [] => None | (j, x) :: t => if j =? k then Some x else at_key k t end.
Definition rem {A} (k : nat) (l : list (nat * A)) : list (nat * A) := filter (fun x => negb (fst x =? k)) l.
(* a cache object: the filter ref1 and the reader ref2 as addresses, their tables, the bits *)
Record cobj := mkCo { c_tab1 : nat; c_tab2 : nat; c_ref1 : nat; c_ref2 : nat; c_obj : list Z }.
Record flt := mkF { f_id : nat; f_tab : nat }.
Record rdr := mkR { r_id : nat; r_cache : option nat; r_dels : nat }.
Record heap := mkH { h_tabs : list (option (list (nat * nat))); h_cos : list (option cobj); h_flts : list (nat * flt); h_rdrs : list (nat * rdr); h_nf : nat; h_nr : nat }.
Definition set_tab (h : heap) (t : nat) (T : option (list (nat * nat))) : heap := mkH (set_nth (h_tabs h) t T) (h_cos h) (h_flts h) (h_rdrs h) (h_nf h) (h_nr h).
Definition set_co (h : heap) (c : nat) (o : option cobj) : heap := mkH (h_tabs h) (set_nth (h_cos h) c o) (h_flts h) (h_rdrs h) (h_nf h) (h_nr h).

Section CACHE.
  Variable bits : nat -> nat -> nat -> list Z.
  (* hash.c 277-296 h_rem *)
  Definition h_rem (h : heap) (t k : nat) : option heap := do T <- cell (h_tabs h) t; Some (set_tab h t (Some (rem k T))).
  (* index.c 187-193 co_destroy *)
  Definition co_destroy (h : heap) (c : nat) : option heap :=
    do o <- cell (h_cos h) c;
    do h <- h_rem h (c_tab1 o) (c_ref2 o);
    do h <- h_rem h (c_tab2 o) (c_ref1 o);
    Some (set_co h c None).
  (* hash.c 363-387 h_set: another value of the key is destroyed first *)
  Definition h_set (h : heap) (t k c : nat) : option heap :=
    do T <- cell (h_tabs h) t;
    do h <- (match at_key k T with Some c' => if c' =? c then Some h else co_destroy h c' | None => Some h end);
    do T <- cell (h_tabs h) t;
    Some (set_tab h t (Some ((k, c) :: rem k T))).
  (* index.c 195-206 co_create *)
  Definition co_create (h : heap) (t1 t2 a b : nat) (obj : list Z) : option (nat * heap) :=
    let c := length (h_cos h) in
    let h := mkH (h_tabs h) (h_cos h ++ [Some (mkCo t1 t2 a b obj)]) (h_flts h) (h_rdrs h) (h_nf h) (h_nr h) in
    do h <- h_set h t1 b c;
    do h <- h_set h t2 a c;
    Some (c, h).
  (* a new table *)
  Definition co_hash_create (h : heap) : nat * heap := (length (h_tabs h), mkH (h_tabs h ++ [Some []]) (h_cos h) (h_flts h) (h_rdrs h) (h_nf h) (h_nr h)).
  Definition set_rdr (h : heap) (b : nat) (r : rdr) : heap := mkH (h_tabs h) (h_cos h) (h_flts h) ((b, r) :: rem b (h_rdrs h)) (h_nf h) (h_nr h).
  (* filter.c 24-38 filt_get_bv of the filter at a and the reader at b *)
  Definition filt_get_bv (h : heap) (a b : nat) : option (list Z * heap) :=
    do f <- at_key a (h_flts h);
    do r <- at_key b (h_rdrs h);
    do T <- cell (h_tabs h) (f_tab f);
    do x <- (match at_key b T with
             | Some c => Some (c, h)
             | None =>
                 let '(t2, h) := match r_cache r with Some t2 => (t2, h) | None => let '(t2, h) := co_hash_create h in (t2, set_rdr h b (mkR (r_id r) (Some t2) (r_dels r))) end in
                 co_create h (f_tab f) t2 a b (bits (f_id f) (r_id r) (r_dels r))
             end);
    do o <- cell (h_cos (snd x)) (fst x);
    Some (c_obj o, snd x).
  (* hash.c 212-233 h_clear: slot by slot, as long as the key is there; 235-252 h_destroy *)
  Fixpoint clear_slots (h : heap) (t : nat) (es : list (nat * nat)) : option heap :=
    match es with
    | [] => Some h
    | (k, _) :: es =>
        do T <- cell (h_tabs h) t;
        do h <- (match at_key k T with Some c => co_destroy h c | None => Some h end);
        do T <- cell (h_tabs h) t;
        clear_slots (set_tab h t (Some (rem k T))) t es
    end.
  Definition h_destroy (h : heap) (t : nat) : option heap := do T <- cell (h_tabs h) t; do h <- clear_slots h t T; Some (set_tab h t None).
  (* filter.c 12-16 filt_destroy_i, for the last reference *)
  Definition drop_filter (h : heap) (a : nat) : option heap :=
    do f <- at_key a (h_flts h);
    do h <- h_destroy h (f_tab f);
    Some (mkH (h_tabs h) (h_cos h) (rem a (h_flts h)) (h_rdrs h) (h_nf h) (h_nr h)).
  (* index.c 4142-4172 ir_close, for the last reference *)
  Definition close_reader (h : heap) (b : nat) : option heap :=
    do r <- at_key b (h_rdrs h);
    do h <- (match r_cache r with Some t => h_destroy h t | None => Some h end);
    Some (mkH (h_tabs h) (h_cos h) (h_flts h) (rem b (h_rdrs h)) (h_nf h) (h_nr h)).
  (* filter.c 57-68 filt_create; a reader is opened; a document of a reader is deleted or all are undeleted *)
  Definition new_filter (h : heap) (a : nat) : heap := let '(t, h) := co_hash_create h in mkH (h_tabs h) (h_cos h) ((a, mkF (h_nf h) t) :: rem a (h_flts h)) (h_rdrs h) (S (h_nf h)) (h_nr h).
  Definition new_reader (h : heap) (b : nat) : heap := mkH (h_tabs h) (h_cos h) (h_flts h) ((b, mkR (h_nr h) None 0) :: rem b (h_rdrs h)) (h_nf h) (S (h_nr h)).
  Definition change (h : heap) (b : nat) : option heap := do r <- at_key b (h_rdrs h); Some (set_rdr h b (mkR (r_id r) (r_cache r) (S (r_dels r)))).

  Inductive call := NewFilter (a : nat) | NewReader (b : nat) | Change (b : nat) | Bits (a b : nat) | DropFilter (a : nat) | CloseReader (b : nat).
  Definition step (h : heap) (o : call) : option (option (list Z) * heap) :=
    match o with
    | NewFilter a => Some (None, new_filter h a)
    | NewReader b => Some (None, new_reader h b)
    | Change b => do h <- change h b; Some (None, h)
    | Bits a b => do x <- filt_get_bv h a b; Some (Some (fst x), snd x)
    | DropFilter a => do h <- drop_filter h a; Some (None, h)
    | CloseReader b => do h <- close_reader h b; Some (None, h)
    end.
  Fixpoint run (h : heap) (os : list call) : option (list (option (list Z)) * heap) :=
    match os with [] => Some ([], h) | o :: t => do x <- step h o; do y <- run (snd x) t; Some (fst x :: fst y, snd y) end.
  Definition new_heap : heap := mkH [] [] [] [] 0 0.
End CACHE.
