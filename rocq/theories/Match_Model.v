(* Model of match vectors and of the highlighting of a whole field, c/src/search.c 509-610, 767-827 and 876-896, c/src/index.c 1414-1468.
   None: undefined behaviour (access out of bounds, reading uninitialised memory) or a raised exception.
   qsort is a parameter: the C standard fixes the result only up to the order of equal elements.  Scores are integers (each match adds 1.0). *)
From Verif Require Import Util.
Open Scope Z_scope.

Record mr := mkMr { m_start : Z; m_end : Z; m_score : Z }.
(* the array has capa cells; None is an uninitialised one *)
Record mvec := mkMv { v_size : nat; v_mem : list (option mr) }.
Definition INIT_CAPA : nat := 8.
(* 524-533 matchv_new *)
Definition matchv_new : mvec := mkMv 0 (repeat None INIT_CAPA).
(* 535-546 matchv_add *)
Definition matchv_add (v : mvec) (s e : Z) : mvec :=
  let mem := if (length (v_mem v) <=? v_size v)%nat then v_mem v ++ repeat None (length (v_mem v)) else v_mem v in
  mkMv (S (v_size v)) (upd mem (v_size v) (Some (mkMr s e 1))).
(* reading all of the matches *)
Fixpoint all_some {A} (l : list (option A)) : option (list A) :=
  match l with [] => Some [] | Some a :: t => do r <- all_some t; Some (a :: r) | None :: _ => None end.
Definition v_list (v : mvec) : option (list mr) := if (v_size v <=? length (v_mem v))%nat then all_some (firstn (v_size v) (v_mem v)) else None.
Definition cell {A} (l : list (option A)) (i : nat) : option A := match nth_error l i with Some (Some m) => Some m | _ => None end.
(* 510-520 match_range_cmp *)
Definition mr_cmp (a b : mr) : Z := if m_start a - m_start b =? 0 then m_end b - m_end a else m_start a - m_start b.
Section SORT.
  Variable qsort : (mr -> mr -> Z) -> list mr -> list mr.
  (* 548-552 matchv_sort *)
  Definition matchv_sort (v : mvec) : option mvec := do l <- v_list v; Some (mkMv (v_size v) (map Some (qsort mr_cmp l) ++ skipn (v_size v) (v_mem v))).
  (* the body of the loops of 554-575 matchv_compact (br = false) and 577-599 matchv_compact_with_breaks (br = true) *)
  Definition c_step (br : bool) (st : option (nat * list (option mr))) (right : nat) : option (nat * list (option mr)) :=
    do x <- st;
    let left := fst x in let mem := snd x in
    do r <- cell mem right;
    do l <- cell mem left;
    if m_end l + (if br then 0 else 1) <? m_start r then Some (S left, upd mem (S left) (Some r))
    else if m_end l <? m_end r then Some (left, upd mem left (Some (mkMr (m_start l) (m_end r) (if br then m_score l + m_score r else m_score l))))
    else if negb br || (left <? right)%nat then Some (left, upd mem left (Some (mkMr (m_start l) (m_end l) (m_score l + m_score r))))
    else st.
  Definition compact (br : bool) (v : mvec) : option mvec :=
    do w <- matchv_sort v;
    do x <- fold_left (c_step br) (seq 0 (v_size w)) (Some (0%nat, v_mem w));
    Some (mkMv (S (fst x)) (snd x)).

  (* a lazy document field: the values joined by blanks; len is the length of the stored bytes until a compressed field is read *)
  Record ldf := mkLdf { f_text : list Z; f_len : Z; f_comp : bool }.
  (* index.c 1414-1468 lazy_df_get_bytes *)
  Definition get_bytes (d : ldf) (start len : Z) : option (list Z * ldf) :=
    let d' := if f_comp d then mkLdf (f_text d) (Z.of_nat (length (f_text d))) false else d in
    if (start <? 0) || (f_len d' <=? start) then None
    else if len <=? 0 then None
    else if f_len d' <? start + len then None
    else Some (firstn (Z.to_nat len) (skipn (Z.to_nat start) (f_text d')), d').
  (* writing to a buffer of capa bytes *)
  Definition put (capa : Z) (out bs : list Z) : option (list Z) := if Z.of_nat (length out + length bs) <=? capa then Some (out ++ bs) else None.
  (* the pieces of 793-797, 801-805, 811-815 *)
  Definition copy (capa : Z) (d : ldf) (out : list Z) (from len : Z) : option (list Z * ldf) :=
    if len =? 0 then Some (out, d) else do b <- get_bytes d from len; do o <- put capa out (fst b); Some (o, snd b).
  (* 602-610 matchv_set_offsets *)
  Definition set_offsets (offs : list (Z * Z)) (m : mr) : option (Z * Z) :=
    if (m_start m <? 0) || (m_end m <? 0) then None
    else do a <- nth_error offs (Z.to_nat (m_start m)); do b <- nth_error offs (Z.to_nat (m_end m)); Some (fst a, snd b).
  Fixpoint set_all (offs : list (Z * Z)) (ms : list mr) : option (list (Z * Z)) :=
    match ms with [] => Some [] | m :: t => do a <- set_offsets offs m; do r <- set_all offs t; Some (a :: r) end.
  Fixpoint h_loop (capa : Z) (d : ldf) (pre post : list Z) (ms : list (Z * Z)) (out : list Z) (last : Z) : option (list Z * Z * ldf) :=
    match ms with
    | [] => Some (out, last, d)
    | (s, e) :: ms' =>
        do a <- copy capa d out last (s - last);
        do o1 <- put capa (fst a) pre;
        do b <- copy capa (snd a) o1 s (e - s);
        do o2 <- put capa (fst b) post;
        h_loop capa (snd b) pre post ms' o2 e
    end.
  (* 776-824 highlight_field: the string without its final NUL, for which there must be room; without matches the NUL is written at the length that
     get_bytes may have changed, and all bytes before it must have been written *)
  Definition highlight_field (v : mvec) (d : ldf) (offs : list (Z * Z)) (pre post : list Z) : option (list Z) :=
    let capa := 10 + f_len d + Z.of_nat (v_size v) * (Z.of_nat (length pre) + Z.of_nat (length post)) in
    if (0 <? v_size v)%nat then
      do w <- compact true v;
      do ms <- v_list w;
      do os <- set_all offs ms;
      do x <- h_loop capa d pre post os [] 0;
      let '(out, last, d1) := x in
      do y <- copy capa d1 out last (f_len d1 - last);
      do z <- put capa (fst y) [0];
      Some (fst y)
    else
      do b <- get_bytes d 0 (f_len d);
      do o <- put capa [] (fst b);
      if (0 <=? f_len (snd b)) && (f_len (snd b) <? capa) && (f_len (snd b) <=? Z.of_nat (length o)) then Some (firstn (Z.to_nat (f_len (snd b))) o) else None.
End SORT.

(* ---------- 878-896: the candidates for excerpts, as the indexes of their first and last match; offsets of the matches *)
Section EXC.
  Variable excerpt_len : Z.
  Fixpoint grow (fuel : nat) (ms : list (Z * Z)) (start_offset : Z) (e_end : nat) : nat :=
    match fuel with
    | O => e_end
    | S k => match nth_error ms e_end with
             | Some m => if snd m <=? start_offset + excerpt_len then grow k ms start_offset (S e_end) else e_end
             | None => e_end
             end
    end.
  Fixpoint candidates (ms : list (Z * Z)) (starts : list (nat * Z)) (e_end : nat) : list (Z * Z) :=
    match starts with
    | [] => []
    | (i, s) :: t =>
        let e0 := if (e_end <? i)%nat then i else e_end in
        let e1 := grow (length ms) ms s e0 in
        (Z.of_nat i, Z.of_nat e1 - 1) :: candidates ms t e1
    end.
  Definition excerpts_of (ms : list (Z * Z)) : list (Z * Z) := candidates ms (combine (seq 0 (length ms)) (map fst ms)) 0.
  (* 920-926: the offsets of an excerpt are read from its first and last match *)
  Definition excerpt_offsets (ms : list (Z * Z)) (e : Z * Z) : option (Z * Z) :=
    if (fst e <? 0) || (snd e <? 0) then None else do a <- nth_error ms (Z.to_nat (fst e)); do b <- nth_error ms (Z.to_nat (snd e)); Some (fst a, snd b).
End EXC.
