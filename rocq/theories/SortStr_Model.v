(* Model of making a Sort from Ruby: ruby/ext/r_search.c frb_parse_sort_str, frb_sort_add, frb_sort_init.
   A C string is a block of bytes with indices for its pointers; None is an access outside of the block.  A SortField is a cell of a
   heap: the four constants of c/src/sort.c 133-194 come first and cannot be written.
   Not modelled: the types other than auto that SortField.new takes, garbage collection, isspace outside of the C locale. *)
From Coq Require Import String.
From Verif Require Import Util Codec_Model Seg_Model.
Open Scope Z_scope.

(* isspace *)
Definition is_space (c : Z) : bool := ((9 <=? c) && (c <=? 13)) || (c =? 32).
Definition poke (b : list Z) (i : nat) (v : Z) : option (list Z) := if (i <? length b)%nat then Some (firstn i b ++ v :: skipn (S i) b) else None.
(* the string that starts at an address *)
Fixpoint cstr_of (b : list Z) : option (list Z) :=
  match b with [] => None | c :: t => if c =? 0 then Some [] else do r <- cstr_of t; Some (c :: r) end.
Definition cstr (b : list Z) (i : nat) : option (list Z) := cstr_of (skipn i b).
(* strchr(s, ','), as the number of bytes to go *)
Fixpoint comma_in (b : list Z) : option (option nat) :=
  match b with
  | [] => None
  | c :: t => if c =? 44 then Some (Some 0%nat) else if c =? 0 then Some None else do r <- comma_in t; Some (option_map S r)
  end.
(* 2360: while ((isspace( *s) || *s == ':') && s < e) s++ *)
Fixpoint skip_front (b : list Z) (fuel s e : nat) : option nat :=
  match fuel with
  | O => None
  | S f => do c <- nth_error b s; if (is_space c || (c =? 58)) && (s <? e)%nat then skip_front b f (S s) e else Some s
  end.
(* 2361, 2366: while (isspace(e[-1]) && s < e) e-- *)
Fixpoint skip_back (b : list Z) (s e : nat) : option nat :=
  match e with
  | O => None
  | S e' => do c <- nth_error b e'; if is_space c && (s <? e)%nat then skip_back b s e' else Some e
  end.
Inductive key := KScore | KDoc | KName (n : list Z).
(* 2369-2375 *)
Definition key_of (n : list Z) : key := if beqb (str "SCORE") n then KScore else if beqb (str "DOC_ID") n then KDoc else KName n.
(* 2356-2375: the body of the loop for the bytes from s up to comma *)
Definition parse_item (b : list Z) (s comma : nat) : option (list Z * (key * bool)) :=
  do s <- skip_front b (S (comma - s)) s comma;
  do e <- skip_back b s comma;
  do b <- poke b e 0;
  do re <- (if (s + 4 <? e)%nat then
              do t <- cstr b (e - 4);
              if beqb (str "DESC") t then do e' <- skip_back b s (e - 4); Some (true, e') else Some (false, e)
            else Some (false, e));
  do b <- poke b (snd re) 0;
  do n <- cstr b s;
  Some (b, (key_of n, fst re)).
(* 2354-2379 *)
Fixpoint parse_loop (fuel : nat) (b : list Z) (s fin : nat) : option (list (key * bool)) :=
  match fuel with
  | O => None
  | S f =>
      if (s <? fin)%nat then
        do c <- comma_in (skipn s b);
        let comma := match c with Some n => (s + n)%nat | None => fin end in
        do r <- parse_item b s comma;
        do l <- parse_loop f (fst r) (S comma) fin;
        Some (snd r :: l)
      else Some []
  end.
(* 2341-2381 frb_parse_sort_str; x holds no NUL *)
Definition parse_sort_str (x : list Z) : option (list (key * bool)) := parse_loop (S (length x)) (x ++ [0]) 0 (length x).

(* ---------- Sort.new *)
Record sfield := mkSf { sf_key : key; sf_rev : bool; sf_const : bool }.
Definition heap := list sfield.
(* c/src/sort.c:133-194 *)
Definition CONSTANTS : heap := [mkSf KScore false true; mkSf KScore true true; mkSf KDoc false true; mkSf KDoc true true].
Definition SORT_FIELD_SCORE : nat := 0.
Definition SORT_FIELD_DOC : nat := 2.
Inductive rval := RField (p : nat) | RSym (n : list Z) | RStr (x : list Z) | ROther.
Inductive outcome (A : Type) := Ok (a : A) | ArgError | Undef.
Arguments Ok {A}. Arguments ArgError {A}. Arguments Undef {A}.
Definition set_rev (h : heap) (p : nat) (f : sfield) : heap := firstn p h ++ mkSf (sf_key f) (negb (sf_rev f)) (sf_const f) :: skipn (S p) h.
(* 2383-2407 frb_sort_add: the heap and the pointers added *)
Definition sort_add (h : heap) (v : rval) (reverse : bool) : outcome (heap * list nat) :=
  match v with
  | RField p => match nth_error h p with
                | None => Undef
                | Some f => if reverse then (if sf_const f then Undef else Ok (set_rev h p f, [p])) else Ok (h, [p])
                end
  | RSym n => Ok (h ++ [mkSf (KName n) reverse false], [length h])
  | RStr x => match parse_sort_str x with
              | None => Undef
              | Some l => Ok (h ++ map (fun d => mkSf (fst d) (snd d) false) l, seq (length h) (length l))
              end
  | ROther => ArgError
  end.
Fixpoint sort_add_all (h : heap) (vs : list rval) (reverse : bool) : outcome (heap * list nat) :=
  match vs with
  | [] => Ok (h, [])
  | v :: t => match sort_add h v reverse with
              | Ok (h, ps) => match sort_add_all h t reverse with Ok (h, qs) => Ok (h, ps ++ qs) | ArgError => ArgError | Undef => Undef end
              | ArgError => ArgError
              | Undef => Undef
              end
  end.
(* 2418-2451 frb_sort_init with arguments; a value that is no array is treated like an array of one *)
Definition sort_init (h : heap) (vs : list rval) (reverse : bool) : outcome (heap * list nat) :=
  match sort_add_all h vs reverse with
  | Ok (h, ps) => Ok (h, if existsb (Nat.eqb SORT_FIELD_DOC) ps then ps else ps ++ [SORT_FIELD_DOC])
  | r => r
  end.
(* what a Sort says *)
Fixpoint all_some {A} (l : list (option A)) : option (list A) := match l with [] => Some [] | o :: t => do x <- o; do r <- all_some t; Some (x :: r) end.
Definition shows (h : heap) (ps : list nat) : option (list (key * bool)) := all_some (map (fun p => option_map (fun f => (sf_key f, sf_rev f)) (nth_error h p)) ps).
