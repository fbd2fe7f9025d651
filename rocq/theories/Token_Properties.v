(* C51: stop words; C57: the byte tokenizers; C58: the hyphen filter. *)
From Verif Require Import Util Token_Model Token_Spec Token_Proofs.
Open Scope nat_scope.

(* Whatever the stop words and the tokens: the filtered stream has the tokens that are not stop words, with the text, the offsets and
   the absolute positions they have in the unfiltered stream. *)
Theorem C51_stop_words_keep_positions : forall stop sub p,
  positions p (stop_filter stop sub) = filter (fun x => negb (stop (fst (fst (fst x))))) (positions p sub).
Proof. exact stop_filter_ok. Qed.
Print Assumptions C51_stop_words_keep_positions.

Example C51_example :
  let tks := tokenize isalpha (map Z.of_nat [116; 104; 101; 32; 97; 32; 116; 104; 101; 32; 98])%nat in
  positions (-1) (stop_filter is_the tks) = [([97%Z], 4, 5, 1%Z); ([98%Z], 10, 11, 3%Z)].
Proof. vm_compute. reflexivity. Qed.

(* The positions under which a field with one value is indexed. *)
Theorem C51_indexed_positions : forall stop v, map pos_of (invert_positions (-1) [stop_filter stop v]) =
  filter (fun x => negb (stop (fst (fst (fst x))))) (map pos_of (invert_positions (-1) [v])).
Proof. exact one_value. Qed.
Print Assumptions C51_indexed_positions.

(* With several values this fails: the increments of stop words at the end of a value are lost. *)
Theorem C51_several_values_refuted : exists v w,
  map pos_of (invert_positions (-1) [stop_filter is_the v; stop_filter is_the w]) <>
  filter (fun x => negb (is_the (fst (fst (fst x))))) (map pos_of (invert_positions (-1) [v; w])).
Proof. exact several_values_refuted. Qed.
Print Assumptions C51_several_values_refuted.

(* For every classification of bytes: the tokens are maximal runs of token bytes in order, none is missed, the offsets delimit the run
   and the text is the run cut to 254 bytes. *)
Theorem C57_tokenizers : forall tok s,
  Forall (token_of tok s) (tokenize tok s) /\
  (forall i, i < length s -> tok (nth i s 0%Z) = true -> exists k, In k (tokenize tok s) /\ t_start k <= i < t_end k) /\
  StronglySorted (fun a b => t_end a < t_start b) (tokenize tok s).
Proof. exact tokenize_ok. Qed.
Print Assumptions C57_tokenizers.

(* The whitespace tokenizer splits at blank, tab, newline, vertical tab, form feed and carriage return and nowhere else; the letter
   tokenizer keeps the ASCII letters (C locale). *)
Theorem C57_characters : forall s i, i < length s -> let c := nth i s 0%Z in
  ((exists k, In k (tokenize (fun c => negb (isspace c)) s) /\ t_start k <= i < t_end k) <-> ~ In c [32; 9; 10; 11; 12; 13]%Z) /\
  ((exists k, In k (tokenize isalpha s) /\ t_start k <= i < t_end k) <-> (65 <= c <= 90 \/ 97 <= c <= 122)%Z).
Proof. exact characters. Qed.
Print Assumptions C57_characters.

Example C57_example :
  tokenize (fun c => negb (isspace c)) [32; 97; 45; 98; 9; 10; 99]%Z = [mkTok [97; 45; 98]%Z 1 4 1; mkTok [99%Z] 6 7 1] /\
  tokenize isalpha [32; 97; 45; 98; 9; 10; 99]%Z = [mkTok [97%Z] 1 2 1; mkTok [98%Z] 3 4 1; mkTok [99%Z] 6 7 1].
Proof. split; vm_compute; reflexivity. Qed.

(* A fresh hyphen filter passes words without hyphens on and turns a hyphenated word into the joined word followed by its parts, each with
   its own offsets, the first part at the position of the word and every other part one further. *)
Theorem C58_hyphen_filter : forall sub, Forall word_ok sub -> exists kss, Forall2 expansion sub kss /\ hyphen_filter sub = concat kss.
Proof. exact hyphen_filter_ok. Qed.
Print Assumptions C58_hyphen_filter.

Example C58_example :
  hyphen_filter [mkTok [101; 45; 109; 97; 105; 108]%Z 10 16 1; mkTok [120; 49; 45; 121]%Z 17 21 1] =
  [mkTok [101; 109; 97; 105; 108]%Z 10 16 1; mkTok [101]%Z 10 11 0; mkTok [109; 97; 105; 108]%Z 12 16 1; mkTok [120; 49; 45; 121]%Z 17 21 1] /\
  hyphenated [101; 45; 109; 97; 105; 108]%Z /\
  expand (mkTok [101; 45; 109]%Z 10 13 1) = [mkTok [101; 109]%Z 10 13 1; mkTok [101]%Z 10 11 0; mkTok [109]%Z 12 13 1].
Proof.
  split; [vm_compute; reflexivity|]. split; [|vm_compute; reflexivity].
  split; [left; reflexivity|]. cbn [tl]. repeat constructor; (left; reflexivity) || (right; reflexivity).
Qed.

(* A filter reset in the middle of a word goes on with the old word. *)
Theorem C58_reset_refuted : exists sub sub' k hf, Forall word_ok sub /\ Forall word_ok sub' /\
  hf_next (hf_new sub) = Some (k, hf) /\ hf_all 1000 (hf_reset hf sub') <> hyphen_filter sub'.
Proof. exact hf_reset_refuted. Qed.
Print Assumptions C58_reset_refuted.

(* Two hyphens in a row give an empty token. *)
Theorem C58_empty_tokens_refuted : exists k, word_ok k /\ t_text k <> [] /\ Exists (fun t => t_text t = []) (hyphen_filter [k]).
Proof. exact hf_empty_refuted. Qed.
Print Assumptions C58_empty_tokens_refuted.
