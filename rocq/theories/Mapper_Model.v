(* Model of the MultiMapper: c/src/multimapper.c, whole, and its use by the mapping filter (c/src/analysis.c mf_next 1212-1230).
   A bit vector over the states is a list of bools (C03, C04: two bit vectors are equal, and are found by h_get, when they have the same bits; a scan gives them in
   order).  The table dstates_map is a list of pairs of a bit vector and an index into dstates; a pointer to a DeterministicState is its index.  Strings are lists of
   bytes without NUL.  None is undefined behaviour: a write beyond nstates, a read of dstates[0] before the mapper is compiled, a write outside the buffer.
   The recursion of mulmap_process_state takes fuel (the stack).  Left out: memory that runs out. *)
From Verif Require Import Util Strcmp.
Open Scope Z_scope.

(* lstate_new 46-56, lstate_next 25-34, lstate_is_match 36-45 *)
Record lstate := mkL { l_c : Z; l_val : Z; l_map : list Z }.
Definition lstate_next (s : lstate) (c : Z) : list nat := if c =? l_c s then [Z.to_nat (l_val s)] else [].
Definition lstate_match (s : lstate) : option (nat * list Z) := if l_val s <? 0 then Some (Z.to_nat (- l_val s), l_map s) else None.
(* the start state is given by the pairs (byte, state) in the order of ndstate_add; ndstate_next 66-71 *)
Definition start_next (st : list (Z * nat)) (c : Z) : list nat := map snd (filter (fun p : Z * nat => fst p =? c) st).

(* mulmap_compile 201-246: the non-deterministic automaton.  nstates[0] is the start state, the letter states are from 1 on *)
Definition N_CAPA : nat := 128.
Record nfa := mkN { n_start : list (Z * nat); n_states : list lstate; n_alpha : list Z; n_capa : nat }.
(* 225-229: the states of one pattern; the first of them has number i *)
Fixpoint letters (i : nat) (pat rep : list Z) (plen : nat) : list lstate :=
  match pat with
  | [] => []
  | _ :: rest => match rest with
                 | [] => [mkL (-1) (- Z.of_nat plen) rep]
                 | b :: _ => mkL b (Z.of_nat (S i)) [] :: letters (S i) rest rep plen
                 end
  end.
Definition add_pattern (n : nfa) (m : list Z * list Z) : option nfa :=
  let size := S (length (n_states n)) in
  let plen := length (fst m) in
  let capa := if (n_capa n <=? size + plen + 1)%nat then (n_capa n * 4)%nat else n_capa n in
  if (capa <? size + plen)%nat then None else                            (* nstates[size-1] beyond the array *)
  match fst m with
  | [] => None                                                          (* refused by mulmap_add_mapping *)
  | b :: _ => Some (mkN (n_start n ++ [(b, size)]) (n_states n ++ letters size (fst m) (snd m) plen) (n_alpha n ++ fst m) capa)
  end.
Fixpoint add_patterns (n : nfa) (ms : list (list Z * list Z)) : option nfa :=
  match ms with [] => Some n | m :: ms' => do n' <- add_pattern n m; add_patterns n' ms' end.
Definition build (mappings : list (list Z * list Z)) : option nfa := add_patterns (mkN [] [] [] N_CAPA) (rev mappings).
(* 233-236 *)
Definition zin (c : Z) (l : list Z) : bool := existsb (Z.eqb c) l.
Definition bytes : list Z := map Z.of_nat (seq 0 256).
Definition alphabet (n : nfa) : list Z := filter (fun c => zin c (n_alpha n)) bytes.

(* mulmap_process_state 147-199 *)
Record dstate := mkD { d_next : list nat; d_long : nat; d_map : option (list Z) }.
Definition bset := list bool.
Definition beqb (a b : bset) : bool := if list_eq_dec Bool.bool_dec a b then true else false.
Fixpoint lookup (b : bset) (m : list (bset * nat)) : option nat :=
  match m with [] => None | (b', i) :: m' => if beqb b b' then Some i else lookup b m' end.
Definition bits (b : bset) : list nat := filter (fun i => nth i b false) (seq 0 (length b)).
(* 141-147 mulmap_bv_set_states *)
Definition set_states (b : bset) (l : list nat) : bset := fold_right (fun i b => upd b i true) b l.
Definition empty_set (size : nat) : bset := repeat false size.
Definition state_at (n : nfa) (i : nat) : option lstate := match i with O => None | S j => nth_error (n_states n) j end.
(* 184-193 *)
Definition step (n : nfa) (b : bset) (c : Z) : bset :=
  fold_left (fun acc i => match state_at n i with Some s => set_states acc (lstate_next s c) | None => acc end) (bits b)
            (set_states (empty_set (S (length (n_states n)))) (start_next (n_start n) c)).
(* 172-180 *)
Definition best (n : nfa) (b : bset) : nat * option (list Z) :=
  fold_left (fun acc i => match state_at n i with
                          | Some s => match lstate_match s with Some (len, m) => if (fst acc <? len)%nat then (len, Some m) else acc | None => acc end
                          | None => acc end) (bits b) (O, None).
Definition dfa := (list (bset * nat) * list dstate)%type.
Definition set_next (ds : list dstate) (i : nat) (c : Z) (j : nat) : list dstate :=
  match nth_error ds i with Some d => upd ds i (mkD (upd (d_next d) (Z.to_nat c) j) (d_long d) (d_map d)) | None => ds end.
Fixpoint process (fuel : nat) (n : nfa) (b : bset) (st : dfa) : option (nat * dfa) :=
  match lookup b (fst st) with
  | Some i => Some (i, st)
  | None =>
      match fuel with
      | O => None
      | S fuel' =>
          let i := length (snd st) in
          let st0 := (fst st ++ [(b, i)], snd st ++ [mkD (repeat O 256) (fst (best n b)) (snd (best n b))]) in
          do st' <- fold_left (fun o c => do s <- o; do r <- process fuel' n (step n b c) s; Some (fst (snd r), set_next (snd (snd r)) i c (fst r)))
                              (rev (alphabet n)) (Some st0);
          Some (i, st')
      end
  end.

(* the mapper: mulmap_new 108-119, mulmap_add_mapping 132-149, mulmap_compile *)
Record mapper := mkM { m_mappings : list (list Z * list Z); m_ds : list dstate }.
Definition mulmap_new : mapper := mkM [] [].
Inductive res (A : Type) := Ok (a : A) | Err | Undef.
Arguments Ok {A} a. Arguments Err {A}. Arguments Undef {A}.
Definition mulmap_add (m : mapper) (pattern rep : list Z) : res mapper :=
  match pattern with [] => Err | _ => Ok (mkM (m_mappings m ++ [(pattern, rep)]) []) end.
Definition mulmap_compile (fuel : nat) (m : mapper) : option mapper :=
  do n <- build (m_mappings m);
  do r <- process fuel n (empty_set (S (length (n_states n)))) ([], []);
  Some (mkM (m_mappings m) (snd (snd r))).

(* mulmap_map_len 248-275: out is what is between to and d, room is capa - 1 *)
Fixpoint map_loop (ds : list dstate) (room : nat) (q : nat) (s : list Z) (out : list Z) : option (list Z) :=
  match s with
  | [] => Some out
  | c :: s' =>
      if (length out <? room)%nat then
        do d <- nth_error ds q;
        do q' <- nth_error (d_next d) (Z.to_nat c);
        do d' <- nth_error ds q';
        match d_map d' with
        | Some rep =>
            if (length out <? d_long d' - 1)%nat then None else                            (* d before to *)
            let out' := firstn (length out - (d_long d' - 1)) out in
            map_loop ds room O s' (out' ++ firstn (room - length out') rep)
        | None => map_loop ds room q' s' (out ++ [c])
        end
      else Some out
  end.
Definition mulmap_map_len (m : mapper) (from : list Z) (capa : nat) : option (list Z) :=
  match m_ds m with
  | [] => None                                                                           (* 250: dstates[0] is read before the check *)
  | _ => match capa with O => None | S room => map_loop (m_ds m) room O from [] end
  end.

(* mulmap_dynamic_map 283-323.  moves: erealloc moves the block, of which the code keeps the old address.  In a round: what is left of the text *)
Fixpoint dyn_loop (ds : list dstate) (room : nat) (q : nat) (s : list Z) (out : list Z) : option (nat * list Z * list Z) :=
  match s with
  | [] => Some (q, s, out)
  | c :: s' =>
      if (length out <? room)%nat then
        do d <- nth_error ds q;
        do q' <- nth_error (d_next d) (Z.to_nat c);
        do d' <- nth_error ds q';
        match d_map d' with
        | Some rep =>
            if (length out <? d_long d' - 1)%nat then None else
            let out' := firstn (length out - (d_long d' - 1)) out in
            dyn_loop ds room O s' (out' ++ firstn (room - length out') rep)
        | None => dyn_loop ds room q' s' (out ++ [c])
        end
      else Some (q, s, out)
  end.
Fixpoint dyn_rounds (rounds : nat) (moves : bool) (ds : list dstate) (room : nat) (q : nat) (s : list Z) (out : list Z) : option (list Z) :=
  match rounds with
  | O => None
  | S k =>
      do r <- dyn_loop ds room q s out;
      match r with
      | (_, [], out') => Some out'
      | (q', s', out') => if moves then None else dyn_rounds k moves ds (room + 1024) q' s' out'
      end
  end.
Definition mulmap_dynamic_map (rounds : nat) (moves : bool) (m : mapper) (from : list Z) : option (list Z) :=
  match m_ds m with
  | [] => None
  | _ => match from with [] => None                                                      (* a NUL is written into a block of size 0 *)
                       | _ => dyn_rounds rounds moves (m_ds m) (length from - 1) O from [] end
  end.
