(* The scorers that have no scorers below them, for Bool_Model: TermScorer and MultiTermScorer (Tsc_Model) and the exact PhraseScorer (Tpe_Model) with
   the reader they read from, and ConstantScoreScorer (c/src/q_const_score.c 23-51) on a bit vector no other scorer uses (Filter_Model has shared ones). *)
From Verif Require Import Util BitVector_Model Range_Model Tsc_Model Tpe_Model.
Open Scope Z_scope.

Inductive leaf :=
| LTerm (r : prdr) (del : Z -> bool) (b : rbuf)
| LMulti (r : prdr) (del : Z -> bool) (s : mts)
| LBits (doc : Z) (v : bv)
| LPhrase (r : prdr) (del : Z -> bool) (qs : list (list Z) -> list nat) (s : csc).
(* scorer->doc *)
Definition leaf_doc (l : leaf) : Z := match l with LTerm _ _ b => b_doc b | LMulti _ _ s => m_doc s | LBits d _ => d | LPhrase _ _ _ s => s_doc s end.
(* q_const_score.c 28-36 cssc_next, cssc_skip_to; a negative document would be a bit in front of the vector *)
Definition bits_run (op : option Z) (v : bv) : option (Z * bv) :=
  match op with None => bv_scan_next v | Some d => if d <? 0 then None else bv_scan_next_from v (Z.to_nat d) end.
(* scorer->next (None) and scorer->skip_to; fuel: of the loops of a phrase *)
Definition leaf_run (fuel : nat) (op : option Z) (l : leaf) : option (bool * leaf) :=
  match l with
  | LTerm r del b => do x <- match op with None => rb_next r del TSC_READ b | Some d => rb_skip r del d b end; Some (fst x, LTerm r del (snd x))
  | LMulti r del s => do x <- match op with None => multi_next r del s | Some d => multi_skip r del d s end; Some (fst x, LMulti r del (snd x))
  | LBits _ v => do x <- bits_run op v; Some (0 <=? fst x, LBits (fst x) (snd x))
  | LPhrase r del qs s => do x <- csc_run r del qs fuel op s; Some (fst x, LPhrase r del qs (snd x))
  end.
