(* Model of TopDocs#to_s: frb_td_to_s (ruby/ext/r_search.c 193-241) with lazy_df_get_data (c/src/index.c 1390-1412). The buffers are those of Json_Model.
   Simplified: the texts that printf makes of the scores are given; numbers are not negative and fit into a C int. *)
From Coq Require Import String Ascii.
From Verif Require Import Util Json_Model.
Open Scope Z_scope.

(* a hit: its document, the values of the field if it is stored, the text of its score (%0.5f) *)
Record hit := mkH { h_doc : Z; h_field : option (list (list Z)); h_score : list Z }.
(* 217-224: the first value; without any lazy_df_get_data returns NULL, which strlen may not be given *)
Definition h_value (h : hit) : option (list Z) := match h_field h with None => Some [] | Some [] => None | Some (v :: _) => Some (c_str v) end.
(* 230-231 *)
Definition hit_line (h : hit) (v : list Z) : list Z := [9] ++ int_s (h_doc h) ++ [32; 34] ++ v ++ [34; 58; 32] ++ h_score h ++ [10].
(* 225-228: str + p is computed again after REALLOC_N; left is len - i *)
Definition to_s_room (b : buf) (n left : Z) : buf := if b_capa b <? len (b_text b) + n + 64 then mkB (b_text b) (b_capa b + (n + 64) * left) (b_gone b) else b.
(* 214-234 *)
Fixpoint to_s_hits (b : buf) (hs : list hit) : option buf :=
  match hs with
  | [] => Some b
  | h :: t => do v <- h_value h; do b1 <- print (to_s_room b (len v) (len hs)) (hit_line h v); to_s_hits b1 t
  end.
(* 209-211 *)
Definition to_s_head (total : Z) (max : list Z) : list Z := lit "TopDocs: total_hits = " ++ int_s total ++ lit ", max_score = " ++ max ++ [32; 91; 10].
Definition frb_td_to_s (total : Z) (max : list Z) (hs : list hit) : option (list Z) :=
  do b <- print (mkB [] (len hs * 64 + 100) false) (to_s_head total max);
  do b1 <- to_s_hits b hs;
  do b2 <- print b1 [93; 10];
  Some (b_text b2).
