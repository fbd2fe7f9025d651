(* Model of sorted searches, from the terms of the fields to the page of hits: field_index_get (c/src/field_index.c 34-89) with the four
   classes of indexes (99-251), sort_field_auto_evaluate and sorter_get_comparator (c/src/sort.c 367-446), fshq_pq_new (583-599) and the search
   itself (c/src/search.c 1027-1115), on readers of one or several segments: the enumerators of Dict_Model, Mte_Model, Post_Model, Mtde_Model
   (Range_Model), the queue and the comparisons of Search_Model.
   An array of numbers is a list, one cell for a document; None: a value that was never given.  Floats: as in Search_Model.
   sscanf is given by what it stores (None: nothing; for floats also if it is NaN).  Simplified: reading a cell without a value is undefined behaviour; here it is so
   already if a hit has such a cell, in the code with the first comparison.  Not modelled: memory, a string of values that is longer than INT_MAX. *)
From Verif Require Import Util Strcmp Dict_Model Post_Model Multi_Model Mte_Model Mtde_Model Expand_Model Range_Model Search_Model.
Open Scope Z_scope.

(* ir->terms: index.c 4519-4524 sr_terms, 4821-4824 mr_terms *)
Definition terms (r : rdr) (f : Z) : option tenum :=
  match r with
  | ROne s => Some (EOne (ste_set_field (fst s) (snd s) ste_new f))
  | RMany mp srcs => do y <- mte_new srcs mp f None; Some (EMany (snd y))
  end.

(* ---------- field_index.c *)
Inductive klass := KByte | KInteger | KFloat | KString.
(* the next number (index[-1], v_size), the array, the values of a StringIndex *)
Record findex := mkFx { x_next : Z; x_arr : list (option Z); x_vals : list (option (list Z)) }.
(* 111-116, 134-137, 171-174, 207-216: create_index *)
Definition create_index (k : klass) (size : nat) : findex := mkFx 1 (repeat (Some 0) size) [None].
(* index[d] = v; None: outside of the array *)
Definition store (a : list (option Z)) (d : Z) (v : option Z) : option (list (option Z)) :=
  if (0 <=? d) && (d <? Z.of_nat (length a)) then Some (upd a (Z.to_nat d) v) else None.
Section FX.
  (* sscanf(text, "%ld", &val), sscanf(text, "%g", &val) *)
  Variables (scan_ld scan_g : list Z -> option Z).
  Variables (r : prdr) (del : Z -> bool).
  (* while (tde->next(tde)) index[tde->doc_num(tde)] = val *)
  Fixpoint put_docs (fuel : nat) (de : penum) (v : option Z) (a : list (option Z)) : option (list (option Z) * penum) :=
    match fuel with
    | O => None
    | S k => do x <- pe_next r del de; match fst x with Some d => do a' <- store a d v; put_docs k (snd x) v a' | None => Some (a, snd x) end
    end.
  (* 99-109 byte_handle_term, 139-149 integer_handle_term, 176-186 float_handle_term, 230-244 string_handle_term *)
  Definition handle_term (k : klass) (fuel : nat) (x : findex) (de : penum) (text : list Z) : option (findex * penum) :=
    match k with
    | KByte => do y <- put_docs fuel de (Some (x_next x)) (x_arr x); Some (mkFx (x_next x + 1) (fst y) (x_vals x), snd y)
    | KInteger => do y <- put_docs fuel de (scan_ld text) (x_arr x); Some (mkFx (x_next x) (fst y) (x_vals x), snd y)
    | KFloat => do y <- put_docs fuel de (scan_g text) (x_arr x); Some (mkFx (x_next x) (fst y) (x_vals x), snd y)
    | KString => do y <- put_docs fuel de (Some (x_next x)) (x_arr x); Some (mkFx (x_next x + 1) (fst y) (x_vals x ++ [Some text]), snd y)
    end.
  (* 75-78 while (te->next(te)) *)
  Fixpoint fi_loop (k : klass) (fuel : nat) (te : tenum) (de : penum) (x : findex) : option findex :=
    match fuel with
    | O => None
    | S fu =>
        do n <- te_next (rdr_of r) te;
        match fst n with
        | None => Some x
        | Some t => do d <- pe_seek_te r (snd n) de; do y <- handle_term k fuel x d t; fi_loop k fu (snd n) (snd y) (fst y)
        end
    end.
  (* 67-84; length > 0 *)
  Definition fi_build (k : klass) (fuel : nat) (size : nat) (f : Z) : option findex :=
    do de <- term_docs r; do te <- terms (rdr_of r) f; fi_loop k fuel te de (create_index k size).
End FX.
(* ir->field_index_cache: by field and class (field_index_eq 17-23) *)
Notation fcache := (list ((list Z * klass) * findex)).
Definition klass_eqb (a b : klass) : bool := match a, b with KByte, KByte | KInteger, KInteger | KFloat, KFloat | KString, KString => true | _, _ => false end.
Fixpoint cached (c : fcache) (f : list Z) (k : klass) : option findex :=
  match c with [] => None | (key, x) :: t => if seqb (fst key) f && klass_eqb (snd key) k then Some x else cached t f k end.

(* ---------- sort.c *)
Inductive sftype := Is (t : stype) | Auto.
Record sfield := mkSf { sf_field : list Z; sf_type : sftype; sf_rev : bool }.
Inductive outcome (A : Type) := Ok (a : A) | Raise | Undef.
Arguments Ok {A}. Arguments Raise {A}. Arguments Undef {A}.
Definition klass_of (t : stype) : option klass := match t with TByte => Some KByte | TInteger => Some KInteger | TFloat => Some KFloat | TString => Some KString | _ => None end.
(* 150-165, 258-266: a comparator reads the array, for strings the values at the number in the array; also which cells have a value *)
Definition cell (x : findex) (d : Z) : option Z := if d <? 0 then None else match nth_error (x_arr x) (Z.to_nat d) with Some c => c | None => None end.
Definition comp_of (t : stype) (rev : bool) (x : findex) : comp :=
  mkComp t rev (fun d => match cell x d with Some v => v | None => 0 end)
               (fun d => match cell x d with Some v => nth (Z.to_nat v) (x_vals x) None | None => None end).
Definition written (x : findex) (d : Z) : bool := match cell x d with Some _ => true | None => false end.
Section SRCH.
  Variables (scan_ld scan_g : list Z -> option Z).
  (* sscanf(text, "%d%n", ...) and sscanf(text, "%f%n", ...): what is stored in scan_len, if anything is *)
  Variables (len_d len_f : list Z -> option Z).
  Variables (r : prdr) (del : Z -> bool) (mx : Z) (live : Z).
  Variable fld : list Z -> option Z.   (* fis_get_field_num *)
  Variable fuel : nat.
  (* 367-385 sort_field_auto_evaluate *)
  Definition auto_type (text : list Z) : stype :=
    let n := Z.of_nat (length text) in
    let l1 := match len_d text with Some l => l | None => 0 end in
    if l1 =? n then TInteger
    else let l2 := match len_f text with Some l => l | None => l1 end in if l2 =? n then TFloat else TString.
  (* field_index_get; the field is unknown: an ArgumentError *)
  Definition field_index_get (c : fcache) (f : list Z) (k : klass) : outcome (findex * fcache) :=
    match fld f with
    | None => Raise
    | Some n => match cached c f k with
                | Some x => Ok (x, c)
                | None => match fi_build scan_ld scan_g r del k fuel (Z.to_nat mx) n with Some x => Ok (x, ((f, k), x) :: c) | None => Undef end
                end
    end.
  (* 423-446 sorter_get_comparator. The type that was found is written to the SortField. 431: te is NULL if the field is unknown; curr_term is
     empty if there is no term *)
  Definition evaluate (s : sfield) : outcome sfield :=
    match sf_type s with
    | Is _ => Ok s
    | Auto =>
        match fld (sf_field s) with
        | None => Undef
        | Some n =>
            match (do te <- terms (rdr_of r) n; te_next (rdr_of r) te) with
            | None => Undef
            | Some (Some t, _) => Ok (mkSf (sf_field s) (Is (auto_type t)) (sf_rev s))
            | Some (None, _) => if 0 <? live then Raise else Ok (mkSf (sf_field s) (Is (auto_type [])) (sf_rev s))
            end
        end
    end.
  Definition get_comparator (c : fcache) (s : sfield) : outcome ((comp * (Z -> bool)) * sfield * fcache) :=
    match evaluate s with
    | Ok s' =>
        match sf_type s' with
        | Is t => match klass_of t with
                  | None => Ok ((mkComp t (sf_rev s) (fun _ => 0) (fun _ => None), fun _ => true), s', c)
                  | Some k => match field_index_get c (sf_field s) k with Ok (x, c') => Ok ((comp_of t (sf_rev s) x, written x), s', c') | Raise => Raise | Undef => Undef end
                  end
        | Auto => Undef
        end
    | Raise => Raise | Undef => Undef
    end.
  (* 583-599 fshq_pq_new *)
  Fixpoint comparators (c : fcache) (l : list sfield) : outcome (list (comp * (Z -> bool)) * list sfield * fcache) :=
    match l with
    | [] => Ok ([], [], c)
    | s :: t => match get_comparator c s with
                | Ok (a, s', c1) => match comparators c1 t with Ok (b, t', c2) => Ok (a :: b, s' :: t', c2) | Raise => Raise | Undef => Undef end
                | Raise => Raise | Undef => Undef
                end
    end.
  Variable coll : list Z -> list Z -> Z.
  (* search.c 1027-1115 with a sort: the documents of the scorer with their scores (None: no scorer), the bits of a filter; the hits, the sort and the cache
     afterwards *)
  Definition search_sorted (hits : option (list hit)) (bits : option (Z -> bool)) (first num : Z) (sort : list sfield) (c : fcache) : outcome (topdocs * list sfield * fcache) :=
    match max_size first num with
    | None => Undef
    | Some _ =>
        if (num <=? 0) || (first <? 0) then Raise
        else match hits with
             | None => Ok (mkTd 0 [] 0, sort, c)
             | Some ms =>
                 if live =? 0 then Ok (mkTd 0 [] 0, sort, c)
                 else match comparators c sort with
                      | Ok (cs, sort', c') =>
                          if forallb (fun h => forallb (fun x : comp * (Z -> bool) => snd x (h_doc h)) cs) (filter (fun h => match bits with Some b => b (h_doc h) | None => true end) ms)
                          then match isea_search_w coll (mkSub (Some ms) live bits None (map fst cs) mx) first num true with
                               | Found td => Ok (td, sort', c') | Raises => Raise | Undefined => Undef end
                          else Undef
                      | Raise => Raise | Undef => Undef
                      end
             end
    end.
End SRCH.
