(* Specification of an encoding: what a user of a writer/reader pair relies on. *)
From Verif Require Import Util Codec_Model.
Open Scope Z_scope.

Definition is_byte (b : Z) : Prop := 0 <= b < 256.

(* Every value of the domain has an encoding, made of bytes, and a reader placed on this
   encoding returns the value and stops on the first byte behind it, whatever follows. *)
Definition roundtrips {A} (dom : A -> Prop) (enc : A -> option (list Z)) (dec : list Z -> rd A) : Prop :=
  forall v, dom v -> exists bs, enc v = Some bs /\ Forall is_byte bs /\ bs <> [] /\
    forall rest, dec (bs ++ rest) = ROk v rest.

(* Writing / reading sequences. *)
Fixpoint write_all {A} (enc : A -> option (list Z)) (vs : list A) : option (list Z) :=
  match vs with
  | [] => Some []
  | v :: vs' => do a <- enc v; do b <- write_all enc vs'; Some (a ++ b)
  end.
Fixpoint read_n {A} (dec : list Z -> rd A) (n : nat) (bs : list Z) : rd (list A) :=
  match n with
  | O => ROk [] bs
  | S n' => match dec bs with
            | ROk v t => match read_n dec n' t with
                         | ROk vs t' => ROk (v :: vs) t' | REof => REof | RUB => RUB end
            | REof => REof | RUB => RUB
            end
  end.

(* A reader never succeeds on a truncated encoding. *)
Definition detects_truncation {A} (dom : A -> Prop) (enc : A -> option (list Z)) (dec : list Z -> rd A) : Prop :=
  forall v bs n, dom v -> enc v = Some bs -> (n < length bs)%nat -> dec (firstn n bs) = REof.

Definition u32 (n : Z) : Prop := 0 <= n < 2 ^ 32.
Definition u64 (n : Z) : Prop := 0 <= n < 2 ^ 64.
Definition i32 (n : Z) : Prop := - 2 ^ 31 <= n < 2 ^ 31.
Definition i64 (n : Z) : Prop := - 2 ^ 63 <= n < 2 ^ 63.
Definition off_nonneg (n : Z) : Prop := 0 <= n < 2 ^ 63.
Definition byte_string (s : list Z) : Prop := Forall is_byte s /\ Z.of_nat (length s) < 2 ^ 31.
