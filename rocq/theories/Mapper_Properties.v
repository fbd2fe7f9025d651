(* C50: the MultiMapper. *)
From Verif Require Import Util Mapper_Model Mapper_Spec Mapper_Proofs.
Open Scope Z_scope.

(* Any patterns of at most 382 bytes, any replacements: compiling ends with an automaton, and with it any text and any capacity give the rewriting of what was read,
   cut to the capacity; all of the text is read unless the buffer is full. *)
Theorem C50_map_partial : forall ms, patterns_ok ms -> Forall (fun m : list Z * list Z => (length (fst m) <= 382)%nat) ms ->
  exists k m, (forall fuel ds, (k <= fuel)%nat -> mulmap_compile fuel (mkM ms ds) = Some m) /\ m_mappings m = ms /\
    forall text capa, byte_string text -> exists u v full out, mulmap_map_len m text (S capa) = Some out /\ text = u ++ v /\ rewrites ms u full /\ out = firstn capa full /\ (v = [] \/ length out = capa).
Proof. exact mapper_ok. Qed.
Print Assumptions C50_map_partial.
(* The rewriting of a text is unique. *)
Theorem C50_unique : forall ms t a, rewrites ms t a -> forall b, rewrites ms t b -> a = b.
Proof. exact rewrites_fun. Qed.
Print Assumptions C50_unique.

(* "abc" -> "hello", "abcd" -> "x", "cab" -> "taxi", of "abc cabc abd cabcd" *)
Definition c50_ms : list (list Z * list Z) := [([97; 98; 99], [104; 101; 108; 108; 111]); ([97; 98; 99; 100], [120]); ([99; 97; 98], [116; 97; 120; 105])].
Definition c50_text : list Z := [97; 98; 99; 32; 99; 97; 98; 99; 32; 97; 98; 100; 32; 99; 97; 98; 99; 100].
Definition c50_run (ms : list (list Z * list Z)) (text : list Z) (capa : nat) : option (list Z) := do m <- mulmap_compile 20 (mkM ms []); mulmap_map_len m text capa.
Example C50_example : c50_run c50_ms c50_text 1000 =
  Some ([104; 101; 108; 108; 111; 32] ++ [116; 97; 120; 105; 99] ++ [32; 97; 98; 100; 32] ++ [116; 97; 120; 105; 99; 100]) /\
  c50_run c50_ms c50_text 9 = Some [104; 101; 108; 108; 111; 32; 99; 97] /\ c50_run [([97; 98; 99], [120])] [97; 98; 99] 3 = Some [97; 98] /\ c50_run [([97], [120]); ([97], [121])] [97; 97] 9 = Some [121; 121].
Proof. repeat (split; [vm_compute; reflexivity|]). vm_compute. reflexivity. Qed.
Example C50_hypotheses_example : patterns_ok c50_ms /\ Forall (fun m : list Z * list Z => (length (fst m) <= 382)%nat) c50_ms /\ byte_string c50_text.
Proof.
  split; [repeat (constructor; [split; [discriminate|repeat (constructor; [lia|]); constructor]|]); constructor|]. split; [repeat (constructor; [cbn; lia|]); constructor|].
  unfold byte_string, c50_text. repeat (constructor; [lia|]). constructor.
Qed.
(* "abab", "ab" -> "x" *)
Example C50_rewrites_example : rewrites [([97; 98], [120])] [99; 97; 98; 97] [99; 120; 97].
Proof.
  assert (A : forall w, ends [([97; 98], [120])] w -> exists u, w = u ++ [97; 98]) by (intros w (p & r & u & [E|[]] & ->); injection E as <- <-; exists u; reflexivity).
  apply (rw_replace _ [99] [97; 98] [120] [97] [97]).
  - exists [], []. split; [reflexivity|intros ? []].
  - intros w x y E G. apply A in G. destruct G as (u & ->). apply (f_equal (@length Z)) in E as L. rewrite !app_length in L. cbn [length] in L. destruct u; [|cbn [length] in L; lia]. discriminate E.
  - intros p' r' u' [E|[]] _. injection E as <- <-. lia.
  - apply rw_copy. intros w v E G. apply A in G. destruct G as (u & ->). apply (f_equal (@length Z)) in E. rewrite !app_length in E. cbn [length] in E. lia.
Qed.

(* A pattern of 512 bytes or more is written beyond the array of states, which grows once only. *)
Lemma long_bad : forall p r fuel ds, (512 <= length p)%nat -> mulmap_compile fuel (mkM [(p, r)] ds) = None.
Proof.
  intros p r fuel ds H. unfold mulmap_compile, build. cbn [m_mappings rev app add_patterns]. unfold add_pattern. cbn [n_states n_capa fst snd length]. unfold N_CAPA.
  destruct (Nat.leb_spec 128 (1 + length p + 1)); [|lia]. destruct (Nat.ltb_spec (128 * 4) (1 + length p)); [reflexivity|lia].
Qed.
Theorem C50_long_pattern_refuted : forall p r fuel ds, (512 <= length p)%nat -> mulmap_compile fuel (mkM [(p, r)] ds) = None.
Proof. exact long_bad. Qed.
Print Assumptions C50_long_pattern_refuted.
(* The functions that map are meant to compile a mapper that is not compiled yet; they read the start state before, which is freed or was never there. *)
Lemma lazy_bad : forall m p r m' text capa, mulmap_add m p r = Ok m' -> mulmap_map_len m' text capa = None.
Proof. intros m p r m' text capa. unfold mulmap_add. destruct p; [discriminate|]. intros H. injection H as <-. reflexivity. Qed.
Theorem C50_not_compiled_refuted : forall m p r m' text capa, mulmap_add m p r = Ok m' -> mulmap_map_len m' text capa = None.
Proof. exact lazy_bad. Qed.
Print Assumptions C50_not_compiled_refuted.
(* mulmap_dynamic_map (MultiMapper#map in Ruby) cuts a replacement at the end of its first buffer: "ab" with "a" -> "hello" gives "hb". *)
Theorem C50_dynamic_refuted : exists ms text m out full, patterns_ok ms /\ byte_string text /\ mulmap_compile 9 (mkM ms []) = Some m /\
  mulmap_dynamic_map 9 false m text = Some out /\ rewrites ms text full /\ out <> full.
Proof.
  exists [([97], [104; 101; 108; 108; 111])], [97; 98].
  assert (X : (do m <- mulmap_compile 9 (mkM [([97], [104; 101; 108; 108; 111])] []); mulmap_dynamic_map 9 false m [97; 98]) = Some [104; 98]) by (vm_compute; reflexivity).
  revert X. destruct (mulmap_compile 9 (mkM [([97], [104; 101; 108; 108; 111])] [])) as [m|]; [|discriminate]. cbn [obind]. intros X.
  exists m, [104; 98], [104; 101; 108; 108; 111; 98]. split; [constructor; [split; [discriminate|constructor; [cbn; lia|constructor]]|constructor]|]. split; [constructor; [lia|constructor; [lia|constructor]]|]. split; [reflexivity|].
  split; [exact X|].
  split; [|discriminate]. apply (rw_replace _ [] [97] [104; 101; 108; 108; 111] [98] [98]).
  - exists [], []. split; [reflexivity|intros ? []].
  - intros w x y Ew (p & r & u & [Ep|[]] & ->). injection Ep as <- <-. apply (f_equal (@length Z)) in Ew. rewrite !app_length in Ew. cbn [length] in Ew. lia.
  - intros p' r' u' [Ep|[]] _. injection Ep as <- <-. lia.
  - apply rw_copy. intros w v Ew (p & r & u & [Ep|[]] & ->). injection Ep as <- <-. destruct u as [|a u]; [discriminate Ew|]. injection Ew as _ Ew. destruct u; discriminate Ew.
Qed.
Print Assumptions C50_dynamic_refuted.
(* It keeps the old address of its buffer when that is moved, and it writes beyond a buffer of no bytes for an empty text. *)
Theorem C50_dynamic_memory_refuted : (exists ms text m, patterns_ok ms /\ byte_string text /\ mulmap_compile 9 (mkM ms []) = Some m /\ forall rounds, mulmap_dynamic_map rounds true m text = None) /\
  forall rounds moves m, mulmap_dynamic_map rounds moves m [] = None.
Proof.
  split; [|intros rounds moves m; unfold mulmap_dynamic_map; destruct (m_ds m); reflexivity].
  exists [([97], [98])], [99; 99]. 
  assert (X : (do m <- mulmap_compile 9 (mkM [([97], [98])] []); do r <- dyn_loop (m_ds m) 1 O [99; 99] []; Some (snd (fst r))) = Some [99]) by (vm_compute; reflexivity).
  revert X. destruct (mulmap_compile 9 (mkM [([97], [98])] [])) as [m|]; [|discriminate]. cbn [obind]. intros X.
  exists m. split; [constructor; [split; [discriminate|constructor; [cbn; lia|constructor]]|constructor]|]. split; [constructor; [lia|constructor; [lia|constructor]]|]. split; [reflexivity|].
  intros [|rounds]; unfold mulmap_dynamic_map; destruct (m_ds m) as [|d ds]; try reflexivity. cbn [length Nat.sub dyn_rounds].
  destruct (dyn_loop (d :: ds) 1 O [99; 99] []) as [[[q s] o]|]; [|reflexivity]. cbn [obind fst snd] in *. apply some_inj in X. subst s. reflexivity.
Qed.
Print Assumptions C50_dynamic_memory_refuted.
