(* Model of ruby/lib/ferret/number_tools.rb: integers as strings that sort in integer order.  Strings are lists of character codes. *)
From Verif Require Import Util.
Open Scope Z_scope.

(* Integer#to_s on a non-negative integer: digits from the right *)
Fixpoint dec (fuel : nat) (n : Z) (acc : list Z) : list Z :=
  match fuel with
  | O => acc
  | S f => if n <? 10 then (48 + n) :: acc else dec f (n / 10) ((48 + n mod 10) :: acc)
  end.
Definition to_s (n : Z) : list Z := dec (S (Z.to_nat (Z.log2 n))) n [].
Definition size (s : list Z) : Z := Z.of_nat (length s).
(* "%0wd" % n for n >= 0: zeros on the left up to the width *)
Definition fmt0 (w : Z) (n : Z) : list Z := repeat 48 (Z.to_nat (w - size (to_s n))) ++ to_s n.
(* "%wd" % n: spaces on the left; negative numbers carry their sign *)
Definition to_s_signed (n : Z) : list Z := if n <? 0 then 45 :: to_s (- n) else to_s n.
Definition fmt (w : Z) (n : Z) : list Z := repeat 32 (Z.to_nat (w - size (to_s_signed n))) ++ to_s_signed n.
(* "%0wd" % n for any n: the sign comes first, then the zeros *)
Definition fmt0s (w : Z) (n : Z) : list Z := if n <? 0 then 45 :: fmt0 (w - 1) (- n) else fmt0 w n.

(* number_tools.rb:17-19 *)
Definition LEN_STR_SIZE : Z := 4.
Definition NEG_LEN_MASK : Z := 10 ^ LEN_STR_SIZE.
(* number_tools.rb:23-36 Integer#to_s_lex *)
Definition to_s_lex (n : Z) : list Z :=
  if 0 <=? n then
    let num_str := to_s n in fmt0s LEN_STR_SIZE (size num_str) ++ num_str
  else
    let num := n * -1 in
    let num_len := size (to_s num) in
    let len_str := fmt0s LEN_STR_SIZE (NEG_LEN_MASK - num_len) in
    let num := 10 ^ num_len - num in
    45 :: len_str ++ fmt0s num_len num.
(* number_tools.rb:48-50 Integer#to_s_pad *)
Definition to_s_pad (width n : Z) : list Z := fmt width n.

(* String#to_i on a string that starts with its digits *)
Fixpoint to_i_acc (acc : Z) (s : list Z) : Z :=
  match s with
  | c :: t => if (48 <=? c) && (c <=? 57) then to_i_acc (10 * acc + (c - 48)) t else acc
  | [] => acc
  end.
Definition to_i (s : list Z) : Z := to_i_acc 0 s.
(* number_tools.rb:107-114 String#to_i_lex *)
Definition to_i_lex (s : list Z) : Z :=
  match s with
  | 45 :: _ => to_i (skipn (Z.to_nat (LEN_STR_SIZE + 1)) s) - 10 ^ (size s - LEN_STR_SIZE - 1)
  | _ => to_i (skipn (Z.to_nat LEN_STR_SIZE) s)
  end.
