(* C125: bits of filters kept per filter and reader. *)
From Verif Require Import Util RamDir_Model Cache_Model Cache_Spec Cache_Proofs.
Open Scope nat_scope.

(* bits that tell which filter and reader they are of, and when they were found *)
Definition ex_bits (f r v : nat) : list Z := [Z.of_nat f; Z.of_nat r; Z.of_nat v].

(* Whatever filters and readers come and go, in whatever order, at whatever addresses: no call uses a table or a cache object that was let go, and each gets the bits that were found when this filter first asked this reader. *)
Theorem C125_bits : forall bits os xs s, does_all bits nothing os = Some (xs, s) -> exists h, run bits new_heap os = Some (xs, h).
Proof. exact bits_run. Qed.
Print Assumptions C125_bits.
(* the reader goes first, another comes to its address; the filter goes, another comes to its address *)
Example C125_bits_example : exists h, run ex_bits new_heap [NewFilter 8; NewReader 9; Bits 8 9; Change 9; Bits 8 9; CloseReader 9; NewReader 9; Bits 8 9; DropFilter 8; NewFilter 8; Change 9; Bits 8 9]
  = Some ([None; None; Some [0; 0; 0]%Z; None; Some [0; 0; 0]%Z; None; None; Some [0; 1; 0]%Z; None; None; None; Some [1; 1; 1]%Z], h).
Proof. eexists. vm_compute. reflexivity. Qed.

(* They are bits of this filter for this reader, of now or of before a change of the reader; of now, if they were not asked for before. *)
Theorem C125_own : forall bits os xs s a b f r v, does_all bits nothing os = Some (xs, s) -> k_flts s a = Some f -> k_rdrs s b = Some (r, v) ->
  exists h h' w, run bits new_heap os = Some (xs, h) /\ filt_get_bv bits h a b = Some (bits f r w, h') /\ w <= v /\ (k_found s f r = None -> w = v).
Proof. exact bits_own. Qed.
Print Assumptions C125_own.
Example C125_own_example : exists h xs h', run ex_bits new_heap [NewReader 2; NewFilter 3; NewReader 4; Bits 3 2; Change 4] = Some (xs, h) /\ filt_get_bv ex_bits h 3 4 = Some ([0; 1; 1]%Z, h').
Proof. eexists _, _, _. vm_compute. split; reflexivity. Qed.

(* A filter that has just been made asks the reader itself, whatever filter had its address before; so does any filter for a reader that has just been opened. *)
Theorem C125_fresh : forall bits os xs s a b, does_all bits nothing os = Some (xs, s) ->
  (forall r v, k_flts s a = None -> k_rdrs s b = Some (r, v) -> exists h h', run bits new_heap os = Some (xs, h) /\ filt_get_bv bits (new_filter h a) a b = Some (bits (k_nf s) r v, h')) /\
  (forall f, k_rdrs s b = None -> k_flts s a = Some f -> exists h h', run bits new_heap os = Some (xs, h) /\ filt_get_bv bits (new_reader h b) a b = Some (bits f (k_nr s) 0, h')).
Proof. intros bits os xs s a b D. split; intros; [eapply fresh_filter|eapply fresh_reader]; eauto. Qed.
Print Assumptions C125_fresh.
Example C125_fresh_example : exists h xs h', run ex_bits new_heap [NewReader 2; NewFilter 3; Bits 3 2; DropFilter 3] = Some (xs, h) /\ filt_get_bv ex_bits (new_filter h 3) 3 2 = Some ([1; 0; 0]%Z, h').
Proof. eexists _, _, _. vm_compute. split; reflexivity. Qed.

(* Each cache object that is kept is the only one of a filter and a reader that are both still there; each table belongs to one of them. *)
Theorem C125_kept : forall bits os xs s, does_all bits nothing os = Some (xs, s) -> exists h, run bits new_heap os = Some (xs, h) /\
  (forall c o, cell (h_cos h) c = Some o -> exists f r v, k_flts s (c_ref1 o) = Some f /\ k_rdrs s (c_ref2 o) = Some (r, v) /\ k_found s f r = Some (c_obj o)) /\
  (forall c c' o o', cell (h_cos h) c = Some o -> cell (h_cos h) c' = Some o' -> c_ref1 o = c_ref1 o' -> c_ref2 o = c_ref2 o' -> c = c') /\
  (forall t T, cell (h_tabs h) t = Some T -> (exists a f, at_key a (h_flts h) = Some f /\ f_tab f = t /\ k_flts s a = Some (f_id f)) \/ (exists b r, at_key b (h_rdrs h) = Some r /\ r_cache r = Some t /\ k_rdrs s b = Some (r_id r, r_dels r))).
Proof. exact cos_live. Qed.
Print Assumptions C125_kept.
(* Once all filters and readers are gone, in whatever order, nothing is kept. *)
Theorem C125_no_leak : forall bits os xs s, does_all bits nothing os = Some (xs, s) -> (forall a, k_flts s a = None) -> (forall b, k_rdrs s b = None) ->
  exists h, run bits new_heap os = Some (xs, h) /\ (forall t, cell (h_tabs h) t = None) /\ forall c, cell (h_cos h) c = None.
Proof. exact no_leak. Qed.
Print Assumptions C125_no_leak.
Example C125_no_leak_example : exists xs, run ex_bits new_heap [NewFilter 1; NewFilter 2; NewReader 3; NewReader 4; Bits 1 3; Bits 2 3; Bits 1 4; Bits 2 4; CloseReader 3; DropFilter 1; DropFilter 2; CloseReader 4]
  = Some (xs, mkH [None; None; None; None] [None; None; None; None] [] [] 2 2).
Proof. eexists. vm_compute. reflexivity. Qed.
