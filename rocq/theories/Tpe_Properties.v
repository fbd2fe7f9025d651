(* C90 C93: the documents that a phrase query finds in an index. *)
From Coq Require Import Sorting.Permutation Sorting.Sorted.
From Verif Require Import Util Strcmp Dict_Model Post_Model Post_Spec Mtde_Model Mtde_Spec Mtde_Properties Range_Model Range_Spec Tsc_Model Tsc_Spec Phrase_Spec Tpe_Model Tpe_Spec Tpe_Proofs TpePhrase_Proofs.
Open Scope Z_scope.
Ltac splits := repeat match goal with |- _ /\ _ => split end.

(* On any index of one or several segments, after any earlier lookups, for any phrase with any number of positions, any offsets and any
   number of alternatives for each, any deletions, any correct qsort and any calls of next and of skip_to beyond the current document: the
   scorer stops at the first document that is not deleted and has, for every position, one of its alternatives at the right distance from
   one place; its frequency is the number of such places if there are no alternatives and no positions are repeated. *)
Theorem C90_phrase : forall i r del qs t f ps, pidx_open i r -> tir_used r t -> pidx_field i f -> qs_ok qs -> ps <> [] -> in_order i f (flat_map snd ps) ->
  exists s t', phw_scorer r del t (Some f) 0 ps = Some (Some s, t') /\ tir_used r t' /\
    forall s1 cur op, creached r del qs s s1 cur -> beyond cur op -> exists b s2, cgives r del qs op s1 (b, s2) /\
      if b then after cur op (s_doc s2) /\ has_phrase i f del ps (s_doc s2) /\ (forall d, after cur op d -> has_phrase i f del ps d -> s_doc s2 <= d) /\ 0 < s_freq s2 /\ (plain i f ps -> phrase_count i f ps (s_doc s2) (s_freq s2))
      else forall d, after cur op d -> ~ has_phrase i f del ps d.
Proof. exact phrase_scorer. Qed.
Print Assumptions C90_phrase.

(* a sort of the numbers of the elements by their comparisons *)
Fixpoint nins (t : list (list Z)) (a : nat) (l : list nat) : list nat := match l with [] => [a] | b :: u => if cell t a b <=? 0 then a :: l else b :: nins t a u end.
Definition c90_qs (t : list (list Z)) : list nat := fold_right (nins t) [] (seq 0 (length t)).
Lemma nins_perm t a l : Permutation (a :: l) (nins t a l).
Proof. induction l as [|b l IH]; cbn [nins]; [reflexivity|]. destruct (cell t a b <=? 0); [reflexivity|]. rewrite perm_swap. constructor. exact IH. Qed.
Lemma c90_qs_ok : qs_ok c90_qs.
Proof.
  intros t Htot Htr. unfold c90_qs. set (n := length t) in *. assert (G : forall l, Forall (fun k => (k < n)%nat) l -> Permutation l (fold_right (nins t) [] l) /\ StronglySorted (fun a b => cell t a b <= 0) (fold_right (nins t) [] l)).
  { induction l as [|a l IH]; intros H; [split; constructor|]. inversion H as [|? ? Ha Hl]; subst. destruct (IH Hl) as (HP & HS). cbn [fold_right]. split; [rewrite <- nins_perm; constructor; exact HP|].
    assert (HF : Forall (fun k => (k < n)%nat) (fold_right (nins t) [] l)) by (eapply Permutation_Forall; eauto). clear HP IH H Hl. induction HS as [|b u HS IH HB]; cbn [nins]; [repeat constructor|]. inversion HF as [|? ? Hb Hu]; subst. destruct (Z.leb_spec (cell t a b) 0).
    - constructor; [constructor; assumption|]. constructor; [assumption|]. rewrite Forall_forall in HB, Hu |- *. intros c Hc. apply (Htr a b c); auto.
    - constructor; [auto|]. apply Forall_forall. intros c Hc. apply (Permutation_in _ (Permutation_sym (nins_perm t a u))) in Hc. destruct Hc as [<-|Hc]; [destruct (Htot a b Ha Hb); [lia|assumption]|]. rewrite Forall_forall in HB. auto. }
  apply G. apply Forall_forall. intros k Hk. apply in_seq in Hk. lia.
Qed.

(* two segments with 3 and 4 documents: a, b, c in document 0 are at 1 5 9, 2 6 and 3; ... *)
Definition c90_vs : list pseg :=
  [mkPseg 2 3 3 [(1, [([97], [(0, [1; 5; 9]); (1, [4]); (2, [0])]); ([98], [(0, [2; 6]); (1, [3]); (2, [1])]); ([99], [(0, [3]); (2, [1])])])];
   mkPseg 2 3 4 [(1, [([97], [(1, [7]); (3, [8; 9])]); ([98], [(0, [0]); (3, [10])]); ([99], [(1, [8]); (2, [0])])])]].
Definition c90_i : pidx := PIMany None c90_vs.
Definition c90_r : prdr := PMany None (flat_map popen1 c90_vs) (pstarts 0 c90_vs).
Fixpoint c90_run (n : nat) (s : csc) (os : list (option Z)) : option (list (option (Z * Z))) :=
  match os with
  | [] => Some []
  | o :: t => match csc_run c90_r (fun d => d =? 2) c90_qs n o s with Some (true, s') => match c90_run n s' t with Some l => Some (Some (s_doc s', s_freq s') :: l) | None => None end | Some (false, _) => Some [None] | None => None end
  end.
Definition c93_phrase (slop : Z) (ps : list (Z * list (list Z))) (os : list (option Z)) : option (list (option (Z * Z))) :=
  match phw_scorer c90_r (fun d => d =? 2) tir_open (Some 1) slop ps with Some (Some s, _) => c90_run 40 s os | _ => None end.
Definition c90_phrase := c93_phrase 0.
(* "a b": 0 (twice), not 1, where they are the other way round, and 6; "a b|c": also 4; with "a" and "b" two apart: 6; "a b c": 0 *)
Example C90_example : c90_phrase [(0, [[97]]); (1, [[98]])] [None; None; None] = Some [Some (0, 2); Some (6, 1); None] /\
  c90_phrase [(0, [[97]]); (1, [[98]; [99]])] [None; None; None; None] = Some [Some (0, 2); Some (4, 1); Some (6, 1); None] /\
  c90_phrase [(0, [[97]]); (1, [[98]; [99]])] [Some 1; Some 5; None] = Some [Some (4, 1); Some (6, 1); None] /\
  c90_phrase [(0, [[97]]); (2, [[98]])] [None; None] = Some [Some (6, 1); None] /\ c90_phrase [(0, [[97]]); (1, [[98]]); (2, [[99]; [120]])] [None; None] = Some [Some (0, 1); None] /\
  c90_phrase [(0, [[97]]); (1, [[120]])] [Some 0] = Some [None].
Proof. splits; vm_compute; reflexivity. Qed.
Lemma c90_open : pidx_open c90_i c90_r /\ pidx_field c90_i 1.
Proof.
  split; [split; [reflexivity|]; split; [reflexivity|]; split; [|split; [apply popen1_ok; vm_compute; reflexivity|exact Logic.I]]|exact Logic.I].
  unfold c90_vs. constructor; [|constructor; [|constructor]]; (split; [cbn; lia|split; [cbn; lia|split; [cbn; lia|split; [cbn; lia|split; [|split; [cbn; lia|apply bound_of; vm_compute; reflexivity]]]]]]; cbn [v_fs]; inv_tac).
Qed.
Example C90_met : pidx_open c90_i c90_r /\ tir_used c90_r tir_open /\ pidx_field c90_i 1 /\ qs_ok c90_qs /\ in_order c90_i 1 (flat_map snd [(0, [[97]]); (1, [[98]; [99]])]) /\ has_phrase c90_i 1 (fun d => d =? 2) [(0, [[97]]); (1, [[98]; [99]])] 4.
Proof.
  split; [apply c90_open|]. split; [constructor|]. split; [apply c90_open|]. split; [exact c90_qs_ok|]. split.
  - intros t x Ht Hx. cbn in Ht. destruct Ht as [<-|[<-|[<-|[]]]]; vm_compute in Hx; repeat (destruct Hx as [<-|Hx]; [split; [vm_compute; reflexivity|split; [discriminate|cbn; repeat constructor; lia]]|]); destruct Hx.
  - split; [reflexivity|]. exists 7. constructor; [exists [97], (4, [7])|constructor; [exists [99], (4, [8])|constructor]]; (split; [cbn; auto|split; [vm_compute; auto|split; [reflexivity|left; reflexivity]]]).
Qed.

(* ---------- C93: sloppy phrases *)
(* On the same indexes and for the same calls, for any slop and any phrase of at least two positions whose words are all different and one of whose
   positions is not further from the start of the phrase than its words are from the start of their fields: the scorer stops at the first
   document that is not deleted and has words for all positions that are moved against each other by at most the slop. *)
Theorem C93_sloppy : forall i r del qs t f slop ps, pidx_open i r -> tir_used r t -> pidx_field i f -> qs_ok qs -> in_order i f (flat_map snd ps) -> NoDup (flat_map snd ps) -> (2 <= length ps)%nat -> leads i f ps ->
  exists s t', phw_scorer r del t (Some f) slop ps = Some (Some s, t') /\ tir_used r t' /\
    forall s1 cur op, creached r del qs s s1 cur -> beyond cur op -> exists b s2, cgives r del qs op s1 (b, s2) /\
      if b then after cur op (s_doc s2) /\ has_near i f del slop ps (s_doc s2) /\ (forall d, after cur op d -> has_near i f del slop ps d -> s_doc s2 <= d) /\ 0 < s_freq s2
      else forall d, after cur op d -> ~ has_near i f del slop ps d.
Proof. exact sloppy_scorer. Qed.
Print Assumptions C93_sloppy.
(* Words moved by nothing against each other are the phrase; more slop finds no less. *)
Theorem C93_slop : forall i f del ps d, (has_near i f del 0 ps d <-> has_phrase i f del ps d) /\ forall a b, a <= b -> has_near i f del a ps d -> has_near i f del b ps d.
Proof. intros i f del ps d. split; [split; apply near_exact|]. intros a b. apply near_more. Qed.
Print Assumptions C93_slop.
(* "a b"~1 finds no more than "a b"; "a b"~2 also 1, where they are the other way round; "a c b"~3; "a|x c|b"~1 *)
Example C93_example : c93_phrase 1 [(0, [[97]]); (1, [[98]])] [None; None; None] = Some [Some (0, 2); Some (6, 1); None] /\
  c93_phrase 2 [(0, [[97]]); (1, [[98]])] [None; None; None; None] = Some [Some (0, 2); Some (1, 1); Some (6, 1); None] /\ c93_phrase 2 [(0, [[97]]); (1, [[98]])] [Some 2; None] = Some [Some (6, 1); None] /\
  c93_phrase 3 [(0, [[97]]); (1, [[99]]); (2, [[98]])] [None; None] = Some [Some (0, 3); None] /\
  c93_phrase 1 [(0, [[97]; [120]]); (1, [[99]; [98]])] [None; None; None; None] = Some [Some (0, 2); Some (4, 1); Some (6, 1); None].
Proof. splits; vm_compute; reflexivity. Qed.
Definition c93_ps : list (Z * list (list Z)) := [(0, [[97]]); (1, [[98]])].
Lemma c93_near : has_near c90_i 1 (fun d => d =? 2) 2 c93_ps 1.
Proof. split; [reflexivity|]. exists [4; 2]. split; [|repeat (constructor; try lia)]. constructor; [exists [97], (1, [4])|constructor; [exists [98], (1, [3])|constructor]]; (split; [cbn; auto|split; [vm_compute; auto|split; [reflexivity|left; reflexivity]]]). Qed.
Example C93_met : pidx_open c90_i c90_r /\ pidx_field c90_i 1 /\ in_order c90_i 1 (flat_map snd c93_ps) /\ NoDup (flat_map snd c93_ps) /\ leads c90_i 1 c93_ps /\ has_near c90_i 1 (fun d => d =? 2) 2 c93_ps 1.
Proof.
  split; [apply c90_open|]. split; [apply c90_open|]. split; [|split; [|split; [|exact c93_near]]].
  - intros t x Ht Hx. cbn in Ht. destruct Ht as [<-|[<-|[]]]; vm_compute in Hx; repeat (destruct Hx as [<-|Hx]; [split; [vm_compute; reflexivity|split; [discriminate|cbn; repeat constructor; lia]]|]); destruct Hx.
  - cbn. repeat constructor; cbn; intros H; repeat (destruct H as [H|H]; try discriminate H); exact H.
  - exists (0, [[97]]). split; [left; reflexivity|]. intros t x [<-|[]] Hx. vm_compute in Hx. cbn [fst]. repeat (destruct Hx as [<-|Hx]; [cbn [snd]; repeat constructor; lia|]). destruct Hx.
Qed.
(* Without the condition on the first position (phq_add_term_abs gives any): the end of the first window is taken to be at least 0, so the same
   phrase with greater offsets finds nothing when it is given a slop, though the words are where they should be. *)
Definition c93_late : list (Z * list (list Z)) := [(12, [[97]]); (13, [[98]])].
Theorem C93_late_refuted : c93_phrase 1 c93_late [None] = Some [None] /\ has_near c90_i 1 (fun d => d =? 2) 1 c93_late 6 /\ c93_phrase 0 c93_late [None; None; None] = Some [Some (0, 2); Some (6, 1); None].
Proof.
  split; [vm_compute; reflexivity|]. split; [|vm_compute; reflexivity]. split; [reflexivity|]. exists [-3; -3]. split; [|constructor; [constructor; [cbn; lia|constructor]|repeat constructor]]. constructor; [exists [97], (6, [8; 9])|constructor; [exists [98], (6, [10])|constructor]]; (split; [cbn; auto|split; [vm_compute; tauto|split; [reflexivity|cbn; auto]]]).
Qed.
Print Assumptions C93_late_refuted.
