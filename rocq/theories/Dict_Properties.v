(* C16, C59: the term dictionary of a segment. *)
From Verif Require Import Util Codec_Spec Seg_Model Strcmp Dict_Model Dict_Spec DictCursor_Proofs.
Open Scope Z_scope.

(* For any fields with any increasing terms shorter than 255 bytes, any index interval and any skip interval: the dictionary can be written and read
   back, and any sequence of field changes, nexts, seeks, positional reads and lookups on one enumerator answers like the sorted list
   of terms does. *)
Theorem C16_enumerator_follows_terms : forall I K fs, (1 <= I)%nat -> Z.of_nat I < 2 ^ 31 -> i32 K -> dict_ok fs ->
  exists f s, write_dict (Z.of_nat I) K fs = Some f /\ sfi_open f = Some s /\
    forall os, exists rs, ste_run f s ste_new os = Some rs /\ Forall2 (dres_eq K) rs (spec_run fs (-1, O) os).
Proof. exact dict_run. Qed.
Print Assumptions C16_enumerator_follows_terms.

(* After any history, a lookup returns the info stored with the term, and nothing when the term is not there. *)
Theorem C16_lookup_exact : forall I K fs, (1 <= I)%nat -> Z.of_nat I < 2 ^ 31 -> i32 K -> dict_ok fs ->
  exists f s, write_dict (Z.of_nat I) K fs = Some f /\ sfi_open f = Some s /\
    forall os n t, exists rs r, ste_run f s ste_new (os ++ [DField n; DLookup t]) = Some (rs ++ [DDone; DInfo r]) /\
      (forall i, In (t, i) (terms_of fs n) -> exists j, r = Some j /\ same_ti K j i) /\ (~ In t (map fst (terms_of fs n)) -> r = None).
Proof. exact dict_lookup. Qed.
Print Assumptions C16_lookup_exact.

(* two fields; index interval 2 *)
Definition c16_fs : list (Z * list (list Z * ti)) :=
  [ (0, [([], mkTi 1 0 0 0); ([97], mkTi 20 3 4 7); ([97; 98], mkTi 2 9 11 0); ([97; 98; 200], mkTi 17 10 12 5); ([98], mkTi 1 30 40 0)]);
    (3, [([97], mkTi 5 31 44 0); ([122; 122], mkTi 16 40 50 2)]) ].
Example C16_ok_example : dict_ok c16_fs.
Proof.
  unfold dict_ok, c16_fs. split; [|split; [repeat constructor; cbn; intuition discriminate|split; cbn; lia]].
  repeat constructor; cbn; try lia; try reflexivity.
Qed.
Definition c16_run (I : Z) (os : list dop) : option (list dres) :=
  match write_dict I 16 c16_fs with Some f => match sfi_open f with Some s => ste_run f s ste_new os | None => None end | None => None end.
Example C16_run_example : c16_run 2 [DField 0; DNext; DScan [97; 98; 1]; DLookup [97]; DNext; DGet 4; DNext; DNext; DScan []; DField 3; DScan [98]; DLookup [98]; DGet 0; DGet 2; DField 7; DNext] =
  Some [DDone; DTerm (Some []); DTerm (Some [97; 98; 200]); DInfo (Some (mkTi 20 3 4 7)); DTerm (Some [97; 98]); DTerm (Some [98]); DTerm None; DTerm None; DTerm (Some []);
        DDone; DTerm (Some [122; 122]); DInfo None; DTerm (Some [97]); DTerm None; DDone; DTerm None].
Proof. vm_compute. reflexivity. Qed.
Example C16_lookup_example : c16_run 1 [DField 0; DLookup [97; 98; 200]; DLookup [97; 98; 201]] = Some [DDone; DInfo (Some (mkTi 17 10 12 5)); DInfo None].
Proof. vm_compute. reflexivity. Qed.

(* An untokenized value of exactly 255 bytes is not shortened (5625 tests > instead of >=): the term is written, and reading it back
   writes behind curr_term. *)
Definition c16_long : list Z := repeat 97 255.
Theorem C16_untokenized_255_refuted : exists data fs f s, fs = [(0, [(untok_term data, mkTi 1 0 0 0)])] /\
  write_dict 128 16 fs = Some f /\ sfi_open f = Some s /\ ste_run f s ste_new [DField 0; DLookup data] = None.
Proof.
  assert (G : match write_dict 128 16 [(0, [(untok_term c16_long, mkTi 1 0 0 0)])] with Some f => match sfi_open f with Some s =>
    match ste_run f s ste_new [DField 0; DLookup c16_long] with None => true | Some _ => false end | None => false end | None => false end = true) by (vm_compute; reflexivity).
  exists c16_long, [(0, [(untok_term c16_long, mkTi 1 0 0 0)])]. destruct (write_dict _ _ _) as [f|]; [|discriminate G]. exists f. destruct (sfi_open f) as [s|]; [|discriminate G]. exists s.
  destruct (ste_run f s ste_new [DField 0; DLookup c16_long]); [discriminate G|auto].
Qed.
Print Assumptions C16_untokenized_255_refuted.
(* one byte more, and the value is cut to 254 bytes and found *)
Example C16_untokenized_256_example : match write_dict 128 16 [(0, [(untok_term (97 :: c16_long), mkTi 1 0 0 0)])] with
  | Some f => match sfi_open f with Some s => ste_run f s ste_new [DField 0; DLookup (repeat 97 254)] | None => None end | None => None end =
  Some [DDone; DInfo (Some (mkTi 1 0 0 0))].
Proof. vm_compute. reflexivity. Qed.

(* All lookups of one thread through a TermInfosReader are exact, whatever the fields they name. *)
Theorem C59_one_thread_lookups : forall I K fs, (1 <= I)%nat -> Z.of_nat I < 2 ^ 31 -> i32 K -> dict_ok fs ->
  exists f s, write_dict (Z.of_nat I) K fs = Some f /\ sfi_open f = Some s /\
    forall ls, exists rs, tir_run f s tir_open (map (fun l => (O, l)) ls) = Some rs /\ Forall2 (fun l r => ti_res K (terms_of fs (fst l)) (snd l) r) ls rs.
Proof. exact tir_one_thread. Qed.
Print Assumptions C59_one_thread_lookups.
Definition c59_run (ls : list (nat * (Z * list Z))) : option (list (option ti)) :=
  match write_dict 2 16 c16_fs with Some f => match sfi_open f with Some s => tir_run f s tir_open ls | None => None end | None => None end.
Example C59_one_thread_example : c59_run [(O, (0, [97])); (O, (3, [97])); (O, (3, [98])); (O, (0, [98]))] =
  Some [Some (mkTi 20 3 4 7); Some (mkTi 5 31 44 0); None; Some (mkTi 1 30 40 5)]. (* the skip offset of a term below the skip interval is not stored *)
Proof. vm_compute. reflexivity. Qed.
(* With two threads the shared field number hides that the first thread's enumerator is still on another field: its lookup answers
   from that field. *)
Theorem C59_two_threads_refuted : exists fs ls rs i, dict_ok fs /\
  match write_dict 2 16 fs with Some f => match sfi_open f with Some s => tir_run f s tir_open ls | None => None end | None => None end = Some rs /\
  nth_error ls 2 = Some (O, (3, [97])) /\ In ([97], i) (terms_of fs 3) /\ nth_error rs 2 = Some (Some (mkTi 20 3 4 7)) /\ ti_df i = 5.
Proof.
  exists c16_fs, [(O, (0, [98])); (S O, (3, [122; 122])); (O, (3, [97]))]. eexists. exists (mkTi 5 31 44 0). split; [exact C16_ok_example|].
  split; [vm_compute; reflexivity|]. split; [reflexivity|]. split; [vm_compute; auto|]. split; reflexivity.
Qed.
Print Assumptions C59_two_threads_refuted.
