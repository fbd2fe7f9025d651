(* C128, C129: to_json. *)
From Coq Require Import String Ascii.
From Verif Require Import Util Json_Model Json_Spec Json_Proofs Json_Proofs2 Json_Proofs3.
Open Scope Z_scope.

(* What the specification calls JSON says one thing only. *)
Theorem C128_one_meaning : forall x v v', json x v -> json x v' -> v = v'.
Proof. exact json_one. Qed.
Print Assumptions C128_one_meaning.
Example C128_one_meaning_example : json (name "[[""a"",10],{""b"":[]}]") (JArr [JArr [JStr [97]; JNum 10]; JObj [([98], JArr [])]]).
Proof.
  assert (A : reads (name "[""a"",10],{""b"":[]}]") (JArr [JStr [97]; JNum 10]) (name ",{""b"":[]}]")).
  { apply R_arr. eapply I_more; [apply R_str; constructor; [lia|discriminate|discriminate|constructor]|]. apply I_last. apply (R_num [49; 48] (name "],{""b"":[]}]")); [discriminate|repeat constructor; lia|discriminate|cbn; unfold digit; lia]. }
  apply R_arr. eapply I_more; [exact A|]. apply I_last. apply R_obj. eapply O_last; [constructor; [lia|discriminate|discriminate|constructor]|apply R_none].
Qed.

(* Terms without quotes, backslashes and control characters: however many, if the block can grow where it is, or as long as it need not grow. *)
Theorem C128_terms : forall moves fast ts, Forall (fun t => plain (fst t) /\ 3 * bytes (fst t) + 100 <= 65536 /\ an_int (snd t)) ts ->
  (forall n, moves n = false) \/ fold_right (fun t n => 3 * bytes (fst t) + 100 + n) 0 ts + 3 <= 65536 -> exists x, frb_te_to_json moves fast ts = Some x /\ json x (JArr (map (a_term fast) ts)).
Proof. exact te_json. Qed.
Print Assumptions C128_terms.
Example C128_terms_example : frb_te_to_json (fun _ => true) false [(name "Leo", 1); (name "Tolstoy", 120)] = Some (name "[{""term"":""Leo"",""frequency"":1},{""term"":""Tolstoy"",""frequency"":120}]") /\
  frb_te_to_json (fun _ => true) true [(name "Leo", 1); (name "Tolstoy", 120)] = Some (name "[[""Leo"",1],[""Tolstoy"",120]]") /\ frb_te_to_json (fun _ => true) true [] = Some (name "[]").
Proof. vm_compute. repeat split. Qed.

(* Any terms at all are written within the block then. *)
Theorem C128_terms_safe : forall moves fast ts, Forall (fun t => 3 * bytes (fst t) + 100 <= 65536 /\ 0 <= snd t) ts ->
  (forall n, moves n = false) \/ fold_right (fun t n => 3 * bytes (fst t) + 100 + n) 0 ts + 3 <= 65536 -> frb_te_to_json moves fast ts <> None.
Proof. intros moves fast ts H M. rewrite (te_text moves fast ts H M). discriminate. Qed.
Print Assumptions C128_terms_safe.
Example C128_terms_safe_example : frb_te_to_json (fun _ => true) true [([34; 92; 10], 7)] = Some [91; 91; 34; 39; 34; 39; 92; 10; 34; 44; 55; 93; 93].
Proof. reflexivity. Qed.

(* Documents, with positions or without. *)
Theorem C128_docs : forall moves pos fast es, Forall (fun e => an_int (fst (fst e)) /\ an_int (snd (fst e)) /\ Forall an_int (snd e) /\ (pos = true -> snd (fst e) = bytes (snd e)) /\ 20 * snd (fst e) + 100 <= 65536) es ->
  (forall n, moves n = false) \/ fold_right (fun e n => 20 * snd (fst e) + 100 + n) 0 es + 3 <= 65536 -> exists x, frb_tde_to_json moves pos fast es = Some x /\ json x (JArr (map (a_doc pos fast) es)).
Proof. exact tde_json. Qed.
Print Assumptions C128_docs.
Example C128_docs_example : frb_tde_to_json (fun _ => true) false false [(0, 1, []); (18, 3, [])] = Some (name "[{""document"":0,""frequency"":1},{""document"":18,""frequency"":3}]") /\
  frb_tde_to_json (fun _ => true) true true [(5, 2, [1; 10]); (7, 1, [3])] = Some (name "[[5,2,[1,10]],[7,1,[3]]]") /\
  frb_tde_to_json (fun _ => true) true false [(5, 2, [1; 10])] = Some (name "[{""document"":5,""frequency"":2,""positions"":[1,10]}]").
Proof. vm_compute. repeat split. Qed.

(* jp still points into the old block after a realloc that moves it: with that many terms the text is written into freed memory. *)
Theorem C128_moved_refuted : forall moves fast ts, (forall n, moves n = true) -> 65536 <= fold_right (fun t n => bytes (c_str (fst t)) + 6 + n) 0 ts -> frb_te_to_json moves fast ts = None.
Proof. exact te_moved. Qed.
Print Assumptions C128_moved_refuted.
Example C128_moved_example : 65536 <= fold_right (fun t n => bytes (c_str (fst t)) + 6 + n) 0 (repeat ([97; 98], 1) (Z.to_nat 8192)) /\ frb_te_to_json (fun _ => true) true (repeat ([97; 98], 1) (Z.to_nat 20)) <> None.
Proof. split; [vm_compute; discriminate|vm_compute; discriminate]. Qed.

(* The block is made twice as large once, which is not enough for a document with many positions: written past its end, moved or not. *)
Theorem C128_positions_refuted : forall moves fast d ps, 65536 <= bytes ps -> frb_tde_to_json moves true fast [(d, bytes ps, ps)] = None.
Proof. exact tde_overflow. Qed.
Print Assumptions C128_positions_refuted.
Example C128_positions_example : 65536 <= bytes (repeat 0 (Z.to_nat 65536)) /\ frb_tde_to_json (fun _ => false) true true [(3, 4, [1; 2; 3; 4])] = Some (name "[[3,4,[1,2,3,4]]]").
Proof. split; [vm_compute; discriminate|reflexivity]. Qed.

(* A quote in a term: single quotes are no escape. *)
Theorem C128_quote_refuted : forall moves, exists x, frb_te_to_json moves true [([34], 1)] = Some x /\ forall v, ~ json x v.
Proof. intros moves. eexists. split; [reflexivity|]. exact quote_bad. Qed.
Print Assumptions C128_quote_refuted.
Example C128_quote_example : json (name "[""\""""]") (JArr [JStr [34]]).
Proof. apply R_arr, I_last, R_str. eapply Ch_escape; [reflexivity|constructor]. Qed.

(* Hits: each with a stored field, each field with a value, fields not compressed, no quotes, backslashes and control characters. *)
Theorem C129_hits : forall docs, Forall (fun fs => fs <> [] /\ Forall (fun f => plain (l_name f) /\ l_data f <> [] /\ Forall (fun d => fst d = bytes (snd d) /\ plain (snd d)) (l_data f)) fs) docs ->
  exists x, frb_td_to_json docs = Some x /\ json x (JArr (map (fun fs => JObj (map (fun f => a_field (l_name f) (map snd (l_data f))) fs)) docs)).
Proof. exact td_json. Qed.
Print Assumptions C129_hits.
Example C129_hits_example : frb_td_to_json [[mkLdf (name "f1") [(3, name "one")]]; [mkLdf (name "f2") [(3, name "two"); (1, name "2"); (3, name "2.0")]; mkLdf (name "g") [(0, [])]]]
  = Some (name "[{""f1"":""one""},{""f2"":[""two"",""2"",""2.0""],""g"":""""}]").
Proof. vm_compute. reflexivity. Qed.

(* Whatever is in the fields, nothing is written past the end of the block, if each hit has a stored field and none is compressed. *)
Theorem C129_safe : forall docs, Forall (fun fs => fs <> [] /\ Forall (fun f => Forall (fun d => fst d = bytes (snd d)) (l_data f)) fs) docs -> frb_td_to_json docs <> None.
Proof. intros docs H. rewrite (td_text_all docs H). discriminate. Qed.
Print Assumptions C129_safe.
Example C129_safe_example : frb_td_to_json [[mkLdf (name "funny") [(2, [34; 34])]]] = Some (name "[{""funny"":""'""''""'""}]").
Proof. vm_compute. reflexivity. Qed.

(* Documents that store nothing take room that is not asked for. *)
Theorem C129_empty_refuted : forall n, 10923 <= Z.of_nat n -> frb_td_to_json (repeat [] n) = None.
Proof. exact td_empty. Qed.
Print Assumptions C129_empty_refuted.
Example C129_empty_example : frb_td_to_json (repeat [] 3) = Some (name "[{},{},{}]").
Proof. vm_compute. reflexivity. Qed.

(* The room for a compressed field is counted by its bytes on disk. *)
Theorem C129_compressed_refuted : forall n k v, Forall (fun c => c <> 0) v -> 32768 <= bytes v -> 0 <= k -> bytes n + 3 * k + 106 <= 32768 -> frb_td_to_json [[mkLdf n [(k, v)]]] = None.
Proof. exact td_compressed. Qed.
Print Assumptions C129_compressed_refuted.
Example C129_compressed_example : 32768 <= bytes (repeat 97 (Z.to_nat 32768)) /\ frb_td_to_json [[mkLdf (name "f") [(12, repeat 97 (Z.to_nat 40))]]] <> None.
Proof. split; vm_compute; discriminate. Qed.

(* A field without values: {:f => []} *)
Theorem C129_none_refuted : exists x, frb_td_to_json [[mkLdf (name "f") []]] = Some x /\ forall v, ~ json x v.
Proof. eexists. split; [vm_compute; reflexivity|]. exact none_bad. Qed.
Print Assumptions C129_none_refuted.
Example C129_none_example : json (name "[{""f"":[]}]") (JArr [JObj [([102], JArr [])]]).
Proof. apply R_arr, I_last, R_obj. eapply O_last; [constructor; [lia|discriminate|discriminate|constructor]|apply R_none]. Qed.
