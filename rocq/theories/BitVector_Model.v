(* Model of c/include/bitvector.h and c/src/bitvector.c, and of the deletion file (bv_write, bv_read
   in c/src/index.c).  A word is a Z in [0, 2^32); indices and sizes are natural numbers, that is the
   arithmetic on int is taken without overflow (indices below 2^31 - 1).  Memory obtained from
   realloc holds arbitrary values, given by [junk]. *)
From Verif Require Import Util Codec_Model.
Open Scope nat_scope.

(* struct FrtBitVector; capa is the length of bv_bits *)
Record bv := mkBv { bv_bits : list Z; bv_size : nat; bv_count : Z; bv_curr : Z; bv_ext : bool }.

Definition tb (w : Z) (k : nat) : bool := Z.testbit w (Z.of_nat k).
(* u32 complement *)
Definition wnot (w : Z) : Z := Z.land (Z.lnot w) (Z.ones 32).
Definition ext_word (e : bool) : Z := if e then Z.ones 32 else 0%Z.

(* global.h:75 FRT_TO_WORD *)
Definition TO_WORD (n : nat) : nat := match n with O => 0 | S m => m / 32 + 1 end.
(* global.h:266 frt_round2: 1 << (32 - clz(word)) *)
Definition round2 (w : nat) : nat := match w with O => 1 | _ => 2 ^ S (Nat.log2 w) end.
(* number of k < n with f k *)
Fixpoint cnt (f : nat -> bool) (n : nat) : nat :=
  match n with O => 0 | S m => cnt f m + (if f m then 1 else 0) end.
(* global.h:226-254 frt_count_ones, 257 frt_count_zeros *)
Definition count_ones (w : Z) : nat := cnt (tb w) 32.
Definition count_zeros (w : Z) : nat := count_ones (wnot w).
(* global.h:187-217 frt_count_trailing_zeros, 220 frt_count_trailing_ones *)
Definition ctz (w : Z) : nat := match find (tb w) (seq 0 32) with Some k => k | None => 32 end.
Definition cto (w : Z) : nat := ctz (wnot w).

Section BV.
  Variable junk : nat -> Z.
  Definition junk_words (from n : nat) : list Z := map (fun i => (junk i mod 2 ^ 32)%Z) (seq from n).

  (* bitvector.c:5-16 bv_new_capa, 18-21 bv_new *)
  Definition bv_new_capa (capa : nat) : bv :=
    mkBv (repeat 0%Z (Nat.max (TO_WORD capa) 4)) 0 0%Z (-1)%Z false.
  Definition bv_new : bv := bv_new_capa 256.
  (* bitvector.c:31-37 bv_clear *)
  Definition bv_clear (b : bv) : bv := mkBv (repeat 0%Z (length (bv_bits b))) 0 0%Z (bv_curr b) false.

  (* bitvector.h:92-95, capacity growth; None = endless loop (capacity 0) *)
  Fixpoint grow_capa (fuel capa word : nat) : option nat :=
    match fuel with
    | O => None
    | S f => if capa <=? word then grow_capa f (2 * capa) word else Some capa
    end.
  (* bitvector.h:82-115 frt_bv_set_value *)
  Definition bv_set_value (b : bv) (bit : nat) (value : bool) : option bv :=
    let word := bit / 32 in
    do b1 <- (if bv_size b <=? bit then
                if length (bv_bits b) <=? word then
                  do capa <- grow_capa (S word) (2 * length (bv_bits b)) word;
                  Some (mkBv (bv_bits b ++ repeat (ext_word (bv_ext b)) (capa - length (bv_bits b)))
                             (bit + 1) (bv_count b) (bv_curr b) (bv_ext b))
                else Some (mkBv (bv_bits b) (bit + 1) (bv_count b) (bv_curr b) (bv_ext b))
              else Some b);
    do w <- nth_error (bv_bits b1) word;
    let bitmask := Z.shiftl 1 (Z.of_nat (bit mod 32)) in
    if Bool.eqb (negb (Z.land bitmask w =? 0)%Z) value then Some b1
    else if value
         then Some (mkBv (upd (bv_bits b1) word (Z.lor w bitmask)) (bv_size b1) (bv_count b1 + 1)%Z
                         (bv_curr b1) (bv_ext b1))
         else Some (mkBv (upd (bv_bits b1) word (Z.land w (wnot bitmask))) (bv_size b1) (bv_count b1 - 1)%Z
                         (bv_curr b1) (bv_ext b1)).
  (* bitvector.h:128-131 frt_bv_set, 196-199 frt_bv_unset *)
  Definition bv_set (b : bv) (bit : nat) : option bv := bv_set_value b bit true.
  Definition bv_unset (b : bv) (bit : nat) : option bv := bv_set_value b bit false.
  (* bitvector.h:161-166 frt_bv_set_fast *)
  Definition bv_set_fast (b : bv) (bit : nat) : option bv :=
    do w <- nth_error (bv_bits b) (bit / 32);
    Some (mkBv (upd (bv_bits b) (bit / 32) (Z.lor w (Z.shiftl 1 (Z.of_nat (bit mod 32)))))
               (bit + 1) (bv_count b + 1)%Z (bv_curr b) (bv_ext b)).
  (* bitvector.h:178-185 frt_bv_get *)
  Definition bv_get (b : bv) (bit : nat) : option bool :=
    if bv_size b <=? bit then Some (bv_ext b)
    else do w <- nth_error (bv_bits b) (bit / 32);
         Some (negb (Z.land (Z.shiftr w (Z.of_nat (bit mod 32))) 1 =? 0)%Z).

  (* bitvector.h:221-250 frt_bv_recount *)
  Definition bv_recount (b : bv) : option bv :=
    let extra := (bv_size b mod 32) / 8 + 1 in
    let len := bv_size b / 32 in
    do ws <- (if len <=? length (bv_bits b) then Some (firstn len (bv_bits b)) else None);
    do w <- nth_error (bv_bits b) len;
    let total :=
      if bv_ext b then
        list_sum (map count_zeros ws)
        + (if 4 <=? extra then count_zeros (Z.lor w 16777215) else 0)
        + (if 3 <=? extra then count_zeros (Z.lor w 4278255615) else 0)
        + (if 2 <=? extra then count_zeros (Z.lor w 4294902015) else 0)
        + (if 1 <=? extra then count_zeros (Z.lor w 4294967040) else 0)
      else
        list_sum (map count_ones ws)
        + (if 4 <=? extra then count_ones (Z.land w 4278190080) else 0)
        + (if 3 <=? extra then count_ones (Z.land w 16711680) else 0)
        + (if 2 <=? extra then count_ones (Z.land w 65280) else 0)
        + (if 1 <=? extra then count_ones (Z.land w 255) else 0) in
    Some (mkBv (bv_bits b) (bv_size b) (Z.of_nat total) (bv_curr b) (bv_ext b)).

  (* bitvector.c:39-42 *)
  Definition bv_scan_reset (b : bv) : bv := mkBv (bv_bits b) (bv_size b) (bv_count b) (-1)%Z (bv_ext b).
  (* the loop of 286-290 and 336-340: first word at or after position pos satisfying p, before word_size *)
  Fixpoint scan_words (p : Z -> bool) (fuel pos word_size : nat) (ws : list Z) : option (option (nat * Z)) :=
    match fuel with
    | O => Some None
    | S f =>
        if pos <? word_size then
          do w <- nth_error ws pos;
          if p w then Some (Some (pos, w)) else scan_words p f (S pos) word_size ws
        else Some None
    end.
  (* bitvector.h:271-295 frt_bv_scan_next_from; the word is read before the bound is checked.
     Result: the index or -1, and the vector with curr_bit updated. *)
  Definition bv_scan_next_from (b : bv) (bit : nat) : option (Z * bv) :=
    do w0 <- nth_error (bv_bits b) (bit / 32);
    if bv_size b <=? bit then Some ((-1)%Z, b)
    else
      let word := Z.land w0 (Z.shiftl (Z.ones 32) (Z.of_nat (bit mod 32)) mod 2 ^ 32)%Z in
      do r <- (if (word =? 0)%Z
               then scan_words (fun w => negb (w =? 0)%Z) (length (bv_bits b)) (S (bit / 32)) (TO_WORD (bv_size b)) (bv_bits b)
               else Some (Some (bit / 32, word)));
      match r with
      | None => Some ((-1)%Z, b)
      | Some (pos, w) =>
          let res := Z.of_nat (32 * pos + ctz w) in
          Some (res, mkBv (bv_bits b) (bv_size b) (bv_count b) res (bv_ext b))
      end.
  (* bitvector.h:307-310 frt_bv_scan_next *)
  Definition bv_scan_next (b : bv) : option (Z * bv) := bv_scan_next_from b (Z.to_nat (bv_curr b + 1)).
  (* bitvector.h:321-345 frt_bv_scan_next_unset_from *)
  Definition bv_scan_next_unset_from (b : bv) (bit : nat) : option (Z * bv) :=
    do w0 <- nth_error (bv_bits b) (bit / 32);
    if bv_size b <=? bit then Some ((-1)%Z, b)
    else
      let word := Z.lor w0 (Z.shiftl 1 (Z.of_nat (bit mod 32)) - 1)%Z in
      do r <- (if (wnot word =? 0)%Z
               then scan_words (fun w => negb (wnot w =? 0)%Z) (length (bv_bits b)) (S (bit / 32)) (TO_WORD (bv_size b)) (bv_bits b)
               else Some (Some (bit / 32, word)));
      match r with
      | None => Some ((-1)%Z, b)
      | Some (pos, w) =>
          let res := Z.of_nat (32 * pos + cto w) in
          Some (res, mkBv (bv_bits b) (bv_size b) (bv_count b) res (bv_ext b))
      end.

  (* bitvector.c:44-83 bv_eq on distinct vectors *)
  Fixpoint words_eq (n : nat) (a b : list Z) : option bool :=
    match n with
    | O => Some true
    | S n' => match a, b with
              | x :: a', y :: b' => if (x =? y)%Z then words_eq n' a' b' else Some false
              | _, _ => None
              end
    end.
  Fixpoint words_all (n : nat) (e : Z) (a : list Z) : option bool :=
    match n with
    | O => Some true
    | S n' => match a with
              | x :: a' => if (x =? e)%Z then words_all n' e a' else Some false
              | _ => None
              end
    end.
  Definition bv_eq (b1 b2 : bv) : option bool :=
    if negb (Bool.eqb (bv_ext b1) (bv_ext b2)) then Some false
    else
      let min_size := Nat.min (bv_size b1) (bv_size b2) in
      let word_size := TO_WORD min_size in
      do r <- words_eq word_size (bv_bits b1) (bv_bits b2);
      if r then
        let '(bits, ext_word_size) :=
          if min_size <? bv_size b1 then (bv_bits b1, TO_WORD (bv_size b1))
          else if min_size <? bv_size b2 then (bv_bits b2, TO_WORD (bv_size b2))
          else (bv_bits b1, 0) in
        if ext_word_size =? 0 then Some true
        else words_all (ext_word_size - word_size) (ext_word (bv_ext b1)) (skipn word_size bits)
      else Some false.
  (* bitvector.c:85-96 bv_hash; unsigned long of 64 bits.  The loop runs from the last word down. *)
  Fixpoint hash_words (e : Z) (ws : list Z) : Z :=
    match ws with
    | [] => 0%Z
    | w :: t => let h := hash_words e t in
                if (w =? e)%Z then h else Z.lxor (Z.shiftl h 1 mod 2 ^ 64) w
    end.
  Definition bv_hash (b : bv) : option Z :=
    if TO_WORD (bv_size b) <=? length (bv_bits b)
    then Some (Z.lor (Z.shiftl (hash_words (ext_word (bv_ext b)) (firstn (TO_WORD (bv_size b)) (bv_bits b))) 1 mod 2 ^ 64)
                     (if bv_ext b then 1 else 0))%Z
    else None.

  (* bitvector.h:380-391 frt_bv_capa, called with extends_as_ones already set *)
  Definition bv_capa (b : bv) (capa size : nat) : bv :=
    let word_size := TO_WORD size in
    if length (bv_bits b) <? capa then
      let grown := bv_bits b ++ junk_words (length (bv_bits b)) (capa - length (bv_bits b)) in
      mkBv (firstn word_size grown ++ repeat (ext_word (bv_ext b)) (capa - word_size))
           size (bv_count b) (bv_curr b) (bv_ext b)
    else mkBv (bv_bits b) size (bv_count b) (bv_curr b) (bv_ext b).

  Fixpoint zip_words (op : Z -> Z -> Z) (n : nat) (a b : list Z) : option (list Z) :=
    match n with
    | O => Some []
    | S n' => match a, b with
              | x :: a', y :: b' => do r <- zip_words op n' a' b'; Some (op x y :: r)
              | _, _ => None
              end
    end.
  Inductive bop := BAnd | BOr | BXor.
  Definition wop (o : bop) : Z -> Z -> Z := match o with BAnd => Z.land | BOr => Z.lor | BXor => Z.lxor end.
  Definition oop_bool (o : bop) : bool -> bool -> bool :=
    match o with BAnd => andb | BOr => orb | BXor => xorb end.
  (* bitvector.h:393-409, the words i..max-1 of the result: copied from the longer operand or constant *)
  Definition ext_cb (o : bop) (e : bool) (src : list Z) : list Z :=
    match o with
    | BAnd => if e then src else map (fun _ => 0%Z) src
    | BOr => if e then map (fun _ => Z.ones 32) src else src
    | BXor => map (fun w => Z.lxor w (ext_word e)) src
    end.
  (* bitvector.h:411-437 FRT_BV_OP.  [dest = None]: the destination is the first operand (forms _x),
     whose extends_as_ones and bits are then read after having been modified. *)
  Definition bv_op (o : bop) (dest : option bv) (a b : bv) : option bv :=
    let a_wsz := TO_WORD (bv_size a) in
    let b_wsz := TO_WORD (bv_size b) in
    let max_size := Nat.max (bv_size a) (bv_size b) in
    let min_size := Nat.min (bv_size a) (bv_size b) in
    let max_word_size := TO_WORD max_size in
    let min_word_size := TO_WORD min_size in
    let capa := Nat.max (round2 max_word_size) 4 in
    let d := match dest with Some d => d | None => a end in
    let d1 := mkBv (bv_bits d) (bv_size d) (bv_count d) (bv_curr d)
                   (oop_bool o (bv_ext a) (bv_ext b)) in
    let d2 := bv_capa d1 capa max_size in
    let a1 := match dest with Some _ => a | None => d2 end in
    do low <- zip_words (wop o) min_word_size (bv_bits a1) (bv_bits b);
    do bits <- (if a_wsz =? b_wsz then Some (low ++ skipn min_word_size (bv_bits d2))
                else
                  let '(src, e) := if a_wsz <? b_wsz then (bv_bits b, bv_ext a1) else (bv_bits a1, bv_ext b) in
                  let part := firstn (max_word_size - min_word_size) (skipn min_word_size src) in
                  if length part =? max_word_size - min_word_size
                  then Some (low ++ ext_cb o e part ++ skipn max_word_size (bv_bits d2))
                  else None);
    if length bits =? length (bv_bits d2)      (* all writes inside the allocation *)
    then bv_recount (mkBv bits (bv_size d2) (bv_count d2) (bv_curr d2) (bv_ext d2))
    else None.
  (* bitvector.h:464-481 frt_bv_not_i *)
  Definition bv_not_i (dest : option bv) (b1 : bv) : option bv :=
    let word_size := TO_WORD (bv_size b1) in
    let capa := Nat.max (round2 word_size) 4 in
    let d := match dest with Some d => d | None => b1 end in
    let d1 := mkBv (bv_bits d) (bv_size d) (bv_count d) (bv_curr d) (negb (bv_ext b1)) in
    let d2 := bv_capa d1 capa (bv_size b1) in
    let src := match dest with Some _ => b1 | None => d2 end in
    if andb (word_size <=? length (bv_bits src)) (word_size <=? length (bv_bits d2))
    then bv_recount (mkBv (map wnot (firstn word_size (bv_bits src))
                           ++ repeat (ext_word (bv_ext d2)) (length (bv_bits d2) - word_size))
                          (bv_size d2) (bv_count d2) (bv_curr d2) (bv_ext d2))
    else None.
  (* bitvector.h:492-588 *)
  Definition bv_bin (o : bop) (a b : bv) : option bv := bv_op o (Some bv_new) a b.
  Definition bv_bin_x (o : bop) (a b : bv) : option bv := bv_op o None a b.
  Definition bv_not (b : bv) : option bv := bv_not_i (Some bv_new) b.
  Definition bv_not_x (b : bv) : option bv := bv_not_i None b.
End BV.

(* index.c:4358-4367 bv_write: the bytes written to the deletion file, words in descending order *)
Fixpoint enc_words (ws : list Z) : list Z :=
  match ws with [] => [] | w :: t => enc_32 w ++ enc_words t end.
Definition bv_write (b : bv) : option (list Z) :=
  do v <- enc_vint (Z.of_nat (bv_size b));
  if TO_WORD (bv_size b) <=? length (bv_bits b)
  then Some (v ++ enc_words (rev (firstn (TO_WORD (bv_size b)) (bv_bits b))))
  else None.
(* index.c:4369-4390 bv_read *)
Fixpoint dec_words (n : nat) (bs : list Z) : rd (list Z) :=
  match n with
  | O => ROk [] bs
  | S n' => match dec_u32 bs with
            | ROk w t => match dec_words n' t with ROk ws t' => ROk (w :: ws) t' | REof => REof | RUB => RUB end
            | REof => REof | RUB => RUB
            end
  end.
Definition bv_read (bs : list Z) : rd bv :=
  match dec_v 32 bs with
  | REof => REof | RUB => RUB
  | ROk n t =>
      if (2 ^ 31 <=? n)%Z then RUB
      else
        let size := Z.to_nat n in
        let capa := size / 32 + 1 in
        match dec_words (TO_WORD size) t with
        | REof => REof | RUB => RUB
        | ROk ws t' =>
            match bv_recount (mkBv (rev ws ++ repeat 0%Z (capa - TO_WORD size)) size 0%Z 0%Z false) with
            | Some b => ROk b t'
            | None => RUB
            end
        end
  end.
