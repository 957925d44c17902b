(** Proofs for the examples of the page and of the manual (PropExamples.v). *)
From Coq Require Import String Lia.
From Verif Require Import EndProofs PropApps PropSyntax PropScript ScriptProofs.
From Verif Require Import Syntax EndSpec.
Local Open Scope list_scope.

(** ** Writing texts down *)
Definition is_sign (c : N) : bool := ((97 <=? c) && (c <=? 122) || (65 <=? c) && (c <=? 90) || (c =? 39) || (c =? 95))%N.
Lemma is_sign_ok c : is_sign c = true -> ascii_letter c \/ c = 39%N \/ c = 95%N.
Proof. unfold is_sign, ascii_letter. rewrite !orb_true_iff, !andb_true_iff, !N.leb_le, !N.eqb_eq. lia. Qed.
Definition is_word (t : text) : bool := forallb (fun c => ((97 <=? c) && (c <=? 122) || (65 <=? c) && (c <=? 90))%N) t.
Lemma is_word_ok t : is_word t = true -> Forall ascii_letter t.
Proof.
  unfold is_word. rewrite forallb_forall, Forall_forall. intros H c Hc. specialize (H c Hc). revert H. unfold ascii_letter. rewrite orb_true_iff, !andb_true_iff, !N.leb_le. lia.
Qed.
Lemma no_spaces : spaces []. Proof. constructor. Qed.
Lemma one_space : spaces [32%N]. Proof. repeat constructor. Qed.
Lemma sym_more c ps t : is_sign c = true -> writes_parts ps t -> writes_parts (sy c :: ps) (c :: t).
Proof. intros Hc H. exact (wp_more _ [c] [] ps t (w_symbol c (is_sign_ok c Hc)) no_spaces I H). Qed.
Lemma sym_space c ps t : is_sign c = true -> writes_parts ps t -> writes_parts (sy c :: ps) (c :: 32%N :: t).
Proof. intros Hc H. exact (wp_more _ [c] [32%N] ps t (w_symbol c (is_sign_ok c Hc)) one_space I H). Qed.
Lemma sym_one c : is_sign c = true -> writes_parts [sy c] [c].
Proof. intros Hc. exact (wp_one _ [c] [] (w_symbol c (is_sign_ok c Hc)) no_spaces). Qed.
Lemma sym_end c : is_sign c = true -> writes_parts [sy c] [c; 32%N].
Proof. intros Hc. exact (wp_one _ [c] [32%N] (w_symbol c (is_sign_ok c Hc)) one_space). Qed.
Lemma dot_more ps t : writes_parts ps t -> writes_parts (Dot :: ps) (46%N :: t).
Proof. intros H. exact (wp_more _ [46%N] [] ps t w_dot no_spaces I H). Qed.
Lemma dot_space ps t : writes_parts ps t -> writes_parts (Dot :: ps) (46%N :: 32%N :: t).
Proof. intros H. exact (wp_more _ [46%N] [32%N] ps t w_dot one_space I H). Qed.
Lemma dot_one : writes_parts [Dot] [46%N].
Proof. exact (wp_one _ [46%N] [] w_dot no_spaces). Qed.
Lemma part_one p t : writes p t -> writes_parts [p] t.
Proof. intros H. assert (G := wp_one p t [] H no_spaces). rewrite app_nil_r in G. exact G. Qed.
Lemma part_end p t : writes p t -> writes_parts [p] (t ++ [32%N]).
Proof. intros H. exact (wp_one p t [32%N] H one_space). Qed.
Lemma part_more p t ps t' : writes p t -> (match p with Length _ => False | _ => True end) -> writes_parts ps t' -> writes_parts (p :: ps) (t ++ t').
Proof. intros H Hp G. refine (wp_more p t [] ps t' H no_spaces _ G). destruct p; try exact I. destruct Hp. Qed.
Lemma rep_dot l m b : writes_bounds l m b -> writes (Repeated Dot l m) (46%N :: b).
Proof. intros H. exact (w_repeated Dot [46%N] [] l m b w_dot I no_spaces H). Qed.
Lemma rep_class items ts l m b : Forall2 writes_item items ts -> items <> [] -> writes_bounds l m b -> writes (Repeated (Class false items) l m) ((str "[" ++ concat ts ++ str "]") ++ b).
Proof. intros H Hn Hb. exact (w_repeated _ _ [] l m b (w_class items ts H Hn) I no_spaces Hb). Qed.
Lemma block_written k b t : is_word b = true -> b <> [] -> writes_kind k (length b) t -> writes (Block k (map char_of b)) (str "<" ++ b ++ t).
Proof. intros H Hn Hk. exact (w_block k b t (is_word_ok b H) Hn Hk). Qed.
Lemma alone bs t : writes_branches bs t -> writes_expression bs [] t.
Proof. intros H. assert (G := we_intro [] bs t [] [] no_spaces H wo_nil). rewrite app_nil_r in G. exact G. Qed.
Lemma line_plain ps t : writes_parts ps t -> writes_line (Pattern [ps] []) t.
Proof. intros H. apply wl_pattern. apply alone. exact (wb_one ps t H). Qed.
Lemma line_plain_space ps t : writes_parts ps t -> writes_line (Pattern [ps] []) (32%N :: t).
Proof. intros H. apply wl_pattern. assert (G := we_intro [32%N] [ps] t [] [] one_space (wb_one ps t H) wo_nil). rewrite app_nil_r in G. exact G. Qed.
(** Requests behind a space; before a pattern there may be one. *)
Lemma asked ps t rs r : writes_parts ps (t ++ [32%N]) -> writes_requests rs r -> writes_line (Pattern [ps] rs) (t ++ 32%N :: r).
Proof. intros H Hr. apply wl_pattern. assert (G := we_intro [] [ps] _ rs r no_spaces (wb_one ps _ H) Hr). cbn [app] in G. rewrite <- app_assoc in G. exact G. Qed.
Lemma asked_space ps t rs r : writes_parts ps (t ++ [32%N]) -> writes_requests rs r -> writes_line (Pattern [ps] rs) (32%N :: t ++ 32%N :: r).
Proof. intros H Hr. apply wl_pattern. assert (G := we_intro [32%N] [ps] _ rs r one_space (wb_one ps _ H) Hr). cbn [app] in G. rewrite <- app_assoc in G. exact G. Qed.
Lemma fuzz1 c : is_digit c = true -> writes_requests [Fuzz (N.to_nat (c - 48))] [33%N; c].
Proof. intros H. exact (wo_fuzz [c] _ [] [] [] (num1 c H) no_spaces wo_nil). Qed.
Lemma more_lines l t ls t' : writes_line l t -> writes_query ls t' -> writes_query (l :: ls) (t ++ 59%N :: t').
Proof. intros H G. exact (wq_more l t 59%N ls t' H (or_intror eq_refl) G). Qed.
Lemma num2 a b : is_digit a = true -> is_digit b = true -> numeral [a; b] (N.to_nat (10 * (a - 48) + (b - 48))).
Proof.
  intros Ha Hb. split; [repeat constructor; assumption|]. split; [discriminate|]. unfold decimal. cbn [fold_left]. apply digit_range in Ha, Hb.
  replace ((0 * 10 + (a - 48)) * 10 + (b - 48))%N with (10 * (a - 48) + (b - 48))%N by lia. split; [|reflexivity].
  apply N.lt_trans with 128%N; [lia|reflexivity].
Qed.
Definition spelled (p : string) : list pat := map sy (str p).
(** Symbols and dots, one after the other. *)
Ltac syms :=
  match goal with |- writes_parts ?ps ?t => let ps' := eval vm_compute in ps in let t' := eval vm_compute in t in change (writes_parts ps' t') end;
  repeat match goal with
  | |- writes_parts [Dot] [_] => exact dot_one
  | |- writes_parts (Dot :: _) (_ :: 32%N :: _) => apply dot_space
  | |- writes_parts (Dot :: _) (_ :: _) => apply dot_more
  | |- writes_parts [Symbol _] [?c] => exact (sym_one c eq_refl)
  | |- writes_parts [Symbol _] [?c; 32%N] => exact (sym_end c eq_refl)
  | |- writes_parts (Symbol _ :: _) (?c :: 32%N :: _) => refine (sym_space c _ _ eq_refl _)
  | |- writes_parts (Symbol _ :: _) (?c :: _) => refine (sym_more c _ _ eq_refl _)
  end.

(** ** The examples *)
Definition smiles : line := Pattern [[Block Standard (map char_of (str "smiles"))]] [].
Definition helloworld : list line := [Pattern [spelled "helloworld"] []].
Definition cat_query : list line :=
  [Pattern [[Repeated Dot 0 None] ++ spelled "cat" ++ [Repeated Dot 0 None]] []; Pattern [[Operator OSuperset (spelled "string")]] []; Pattern [[Length 10]] []].
Definition sentence : list line :=
  [Pattern [[Length 3; Length 3; Length 8; Length 7]] []; Pattern [[Operator OSubset (spelled "loohnewhoopcrlovaidytileauqwosllpeassoehncs")]] [Punctuation]].
Definition any : pat := Repeated Dot 0 None.
Definition vowel : pat := Class false (map Single (str "aeiou")).
Definition consonant : pat := Class true (map Single (str "aeiou")).

Lemma w_any : writes any (str ".*").
Proof. exact (rep_dot 0 None _ wr_any). Qed.
Lemma w1 : writes_query helloworld (str "helloworld").
Proof. apply wq_one. apply line_plain. syms. Qed.
Lemma w2 : writes_line smiles (str "<smiles>").
Proof. apply line_plain. apply part_one. exact (block_written Standard (str "smiles") (str ">") eq_refl ltac:(discriminate) (wk_plain _)). Qed.
Lemma w3 : writes_query [smiles; Pattern [[any] ++ spelled "ss" ++ [any]] []] (str "<smiles>; .*ss.*").
Proof.
  apply (more_lines _ (str "<smiles>") _ (str " .*ss.*") w2). apply wq_one. apply (line_plain_space _ (str ".*ss.*")).
  apply (part_more any (str ".*") _ (str "ss.*") w_any I). apply (sym_more 115%N _ (str "s.*") eq_refl). apply (sym_more 115%N _ (str ".*") eq_refl). exact (part_one _ _ w_any).
Qed.
Lemma w4 : writes_query [Pattern [spelled "ahumongoussentincewithmultiplewords"] [Punctuation; Fuzz 1]] (str "ahumongoussentincewithmultiplewords !' !1").
Proof.
  apply wq_one. apply (asked _ (str "ahumongoussentincewithmultiplewords") _ (str "!' !1")); [syms|]. exact (wo_punct [32%N] _ _ one_space (fuzz1 49%N eq_refl)).
Qed.
Lemma w5 : writes_query sentence (str "3 3 8 7; (LOOHNEWHOOPCRLOVAIDYTILEAUQWOSLLPEASSOEHNCS:-) !'").
Proof.
  apply (more_lines _ (str "3 3 8 7") _ (str " (LOOHNEWHOOPCRLOVAIDYTILEAUQWOSLLPEASSOEHNCS:-) !'")).
  - apply line_plain. assert (L : forall c ps t, is_digit c = true -> writes_parts ps t -> writes_parts (Length (N.to_nat (c - 48)) :: ps) (c :: 32%N :: t)).
    { intros c ps t Hc H. refine (wp_more _ [c] [32%N] ps t (w_length [c] _ (num1 c Hc)) one_space _ H). left. discriminate. }
    apply (L 51%N _ (str "3 8 7") eq_refl). apply (L 51%N _ (str "8 7") eq_refl). apply (L 56%N _ (str "7") eq_refl). apply part_one. exact (w_length [55%N] 7 (num1 55%N eq_refl)).
  - apply wq_one. apply (asked_space _ (str "(LOOHNEWHOOPCRLOVAIDYTILEAUQWOSLLPEASSOEHNCS:-)") _ (str "!'")); [|exact (wo_punct [] _ _ no_spaces wo_nil)].
    apply part_end. refine (w_operator OSubset _ [] (str "LOOHNEWHOOPCRLOVAIDYTILEAUQWOSLLPEASSOEHNCS") no_spaces _ _); [syms|]. repeat constructor.
Qed.
Lemma w6 : writes_query [Pattern [spelled "hen"] [Fuzz 1]; Pattern [spelled "hay"] [Fuzz 1]] (str "hen !1; hay !1").
Proof.
  apply (more_lines _ (str "hen !1") _ (str " hay !1")).
  - apply (asked _ (str "hen") _ (str "!1")); [syms|exact (fuzz1 49%N eq_refl)].
  - apply wq_one. apply (asked_space _ (str "hay") _ (str "!1")); [syms|exact (fuzz1 49%N eq_refl)].
Qed.
Lemma w7 : writes_query [Pattern [spelled "breadfast"] [Fuzz 2]] (str "breadfast !2").
Proof. apply wq_one. apply (asked _ (str "breadfast") _ (str "!2")); [syms|exact (fuzz1 50%N eq_refl)]. Qed.
Lemma w8 : writes_query [Pattern [[Repeated Dot 8 (Some 8)] ++ spelled "pi" ++ [Repeated Dot 6 (Some 6)]] [WordEnds]] (str ".{8}pi.{6} !_").
Proof.
  apply wq_one. apply (asked _ (str ".{8}pi.{6}") _ (str "!_")); [|exact (wo_ends [] _ _ no_spaces wo_nil)].
  apply (part_more (Repeated Dot 8 (Some 8)) (str ".{8}") _ (str "pi.{6} ") (rep_dot 8 (Some 8) _ (wr_times (str "8") 8 (num1 56%N eq_refl))) I).
  apply (sym_more 112%N _ (str "i.{6} ") eq_refl). apply (sym_more 105%N _ (str ".{6} ") eq_refl). apply (part_end _ (str ".{6}")). exact (rep_dot 6 (Some 6) _ (wr_times (str "6") 6 (num1 54%N eq_refl))).
Qed.
Lemma w9 : writes_query cat_query (str ".*cat.*; (string:+); 10").
Proof.
  apply (more_lines _ (str ".*cat.*") _ (str " (string:+); 10")); [|apply (more_lines _ (str " (string:+)") _ (str " 10")); [|apply wq_one]].
  - apply line_plain. apply (part_more any (str ".*") _ (str "cat.*") w_any I). apply (sym_more 99%N _ (str "at.*") eq_refl). apply (sym_more 97%N _ (str "t.*") eq_refl). apply (sym_more 116%N _ (str ".*") eq_refl). exact (part_one _ _ w_any).
  - apply (line_plain_space _ (str "(string:+)")). apply part_one. refine (w_operator OSuperset _ [] (str "string") no_spaces _ _); [syms|repeat constructor].
  - apply (line_plain_space _ (str "10")). apply part_one. exact (w_length (str "10") 10 (num2 49%N 48%N eq_refl eq_refl)).
Qed.
Lemma w10 : writes_query [Pattern [[Operator OSubstring (spelled "helloworld")]] []] (str "(hello world:^)").
Proof. apply wq_one. apply line_plain. apply part_one. refine (w_operator OSubstring _ [] (str "hello world") no_spaces _ _); [syms|repeat constructor]. Qed.
Lemma w11 : writes_query [Pattern [spelled "a" ++ [Dot; Dot] ++ spelled "mong" ++ [Dot] ++ spelled "u" ++ [Dot] ++ spelled "s" ++ [Dot] ++ spelled "ntencewithmul" ++ [Dot] ++ spelled "iplewords"] []] (str "a..mong.u.s.ntencewithmul.iplewords").
Proof. apply wq_one. apply line_plain. syms. Qed.
Lemma w12 : writes_query [Pattern [Block (TransDelete 1) (map char_of (str "pasta")) :: spelled "led"] []] (str "<pasta-1>led").
Proof. apply wq_one. apply line_plain. apply (part_more _ (str "<pasta-1>") _ (str "led")); [|exact I|syms]. exact (block_written _ (str "pasta") (str "-1>") eq_refl ltac:(discriminate) (wk_delete 5 (str "1") 1 (num1 49%N eq_refl))). Qed.
Lemma w13 : writes_query [Pattern [spelled "ahumongoussentencewithmultiplewords"] []] (str "ahumongoussentencewithmultiplewords").
Proof. apply wq_one. apply line_plain. syms. Qed.

(** ** With macros *)
Definition name_ok (k : text) : bool :=
  match k with c :: t => is_word [c] && forallb (fun c => is_word [c] || is_digit c || (c =? 95)%N) t | [] => false end.
Lemma name_ok_spec k : name_ok k = true -> macro_name_text k.
Proof.
  destruct k as [|c t]; [discriminate|]. cbn [name_ok]. rewrite andb_true_iff, forallb_forall. intros [H1 H2]. exists c, t. split; [reflexivity|]. split.
  - apply is_word_ok in H1. inversion H1; assumption.
  - apply Forall_forall. intros x Hx. specialize (H2 x Hx). rewrite !orb_true_iff, N.eqb_eq in H2. destruct H2 as [[H2|H2]|H2]; [left|right; left; exact H2|right; right; exact H2]. apply is_word_ok in H2. inversion H2; assumption.
Qed.
Fixpoint twice (v : text) : bool :=
  match v with k :: ((k' :: _) as v') => (k =? k')%N && ((k =? 47) || (k =? 45))%N || twice v' | _ => false end.
Lemma twice_spec p k q : k = 47%N \/ k = 45%N -> twice (p ++ k :: k :: q) = true.
Proof.
  intros Hk. induction p as [|a p IH].
  - cbn [app twice]. rewrite N.eqb_refl. destruct Hk as [->| ->]; reflexivity.
  - cbn [app]. destruct (p ++ k :: k :: q) as [|b l] eqn:El; [destruct p; discriminate|].
    change (twice (a :: b :: l)) with ((a =? b)%N && ((a =? 47) || (a =? 45))%N || twice (b :: l)). rewrite IH, orb_true_r. reflexivity.
Qed.
Definition value_ok (v : text) : bool :=
  forallb (fun c => (32 <=? c) && (c <=? 126) && negb (c =? 59))%N v && negb (hd 0%N v =? 32)%N && negb (last v 0%N =? 32)%N && negb (twice v).
Lemma value_ok_spec v : value_ok v = true -> macro_value_text v.
Proof.
  unfold value_ok. rewrite !andb_true_iff, forallb_forall, !negb_true_iff. intros [[[H1 H2] H3] H4]. split; [|split; [|split]].
  - apply Forall_forall. intros c Hc. specialize (H1 c Hc). rewrite !andb_true_iff, !N.leb_le, negb_true_iff, N.eqb_neq in H1. unfold sep. lia.
  - intros t E. subst v. discriminate H2.
  - intros t E. subst v. rewrite last_last in H3. discriminate H3.
  - intros p k q E. subst v. split; intros Hk; rewrite (twice_spec p k q) in H4 by auto; discriminate.
Qed.
Lemma says_macro k v : name_ok k = true -> value_ok v = true -> says (Defines k v) (k ++ str "=" ++ v).
Proof.
  intros Hk Hv. assert (G := says_define [] k [] [] v [] no_spaces (name_ok_spec k Hk) no_spaces (or_intror eq_refl) no_spaces (value_ok_spec v Hv) no_spaces).
  cbn [app] in G. rewrite app_nil_r in G. exact G.
Qed.
Lemma says_macro_space k v : name_ok k = true -> value_ok v = true -> says (Defines k v) (32%N :: k ++ str "=" ++ v).
Proof.
  intros Hk Hv. assert (G := says_define [32%N] k [] [] v [] one_space (name_ok_spec k Hk) no_spaces (or_intror eq_refl) no_spaces (value_ok_spec v Hv) no_spaces).
  cbn [app] in G. rewrite app_nil_r in G. exact G.
Qed.
Lemma named_ok m : forallb (fun p => name_ok (fst p)) m = true -> named m.
Proof.
  unfold named. induction m as [|[k v] m IH]; [constructor|]. cbn [forallb]. rewrite andb_true_iff. intros [H1 H2]. constructor; [|exact (IH H2)]. destruct k; discriminate.
Qed.

Definition page_macros : list (text * text) := [(str "V", str "[aeiou]"); (str "C", str "[^aeiou]")].
Definition cvccvv : list (list pat) := [[consonant; vowel; consonant; consonant; vowel; vowel]].
Lemma vowel_items : Forall2 writes_item (map Single [97; 101; 105; 111; 117]%N) [[97]; [101]; [105]; [111]; [117]]%N.
Proof. cbn [map]. repeat (apply Forall2_cons; [apply wi_single; unfold ascii_letter; lia|]). constructor. Qed.
Lemma w_vowel : writes vowel (str "[aeiou]").
Proof. refine (w_class (map Single (str "aeiou")) [str "a"; str "e"; str "i"; str "o"; str "u"] vowel_items _). discriminate. Qed.
Lemma w_consonant : writes consonant (str "[^aeiou]").
Proof.
  refine (w_negated (map Single (str "aeiou")) [str "a"; str "e"; str "i"; str "o"; str "u"] vowel_items _ _); [discriminate|].
  change (letters_only (map Single [97; 101; 105; 111; 117]%N)). unfold letters_only. cbn [map]. repeat (apply Forall_cons; [unfold ascii_letter; lia|]). constructor.
Qed.
Lemma w14 u : writes_script u [Pattern cvccvv []] None (str "V=[aeiou]; C=[^aeiou]; CVCCVV").
Proof.
  exists [str "V=[aeiou]"; str " C=[^aeiou]"; str " CVCCVV"], None. split; [|split; [|exact I]].
  - apply (lines_more (str "V=[aeiou]") 59%N (str " C=[^aeiou]; CVCCVV")); [apply nothing_sep; reflexivity|right; reflexivity|].
    apply (lines_more (str " C=[^aeiou]") 59%N (str " CVCCVV")); [apply nothing_sep; reflexivity|right; reflexivity|].
    apply lines_one. apply nothing_sep; reflexivity.
  - apply rd_define with (str "V=[aeiou]") (str "V") (str "[aeiou]") [(str "V", str "[aeiou]")]; [constructor|exact (says_macro (str "V") (str "[aeiou]") eq_refl eq_refl)|exact (insert_bind _ _ [])|].
    apply rd_define with (str " C=[^aeiou]") (str "C") (str "[^aeiou]") page_macros; [|exact (says_macro_space (str "C") (str "[^aeiou]") eq_refl eq_refl)|exact (insert_bind _ _ [(str "V", str "[aeiou]")])|].
    { exact (substitute_spec [(str "V", str "[aeiou]")] (named_ok [(str "V", str "[aeiou]")] eq_refl) (str " C=[^aeiou]")). }
    apply rd_line with (str " [^aeiou][aeiou][^aeiou][^aeiou][aeiou][aeiou]"); [exact (substitute_spec page_macros (named_ok page_macros eq_refl) (str " CVCCVV"))| |constructor].
    apply says_line. apply (line_plain_space _ (str "[^aeiou][aeiou][^aeiou][^aeiou][aeiou][aeiou]")).
    apply (part_more _ _ _ (str "[aeiou][^aeiou][^aeiou][aeiou][aeiou]") w_consonant I). apply (part_more _ _ _ (str "[^aeiou][^aeiou][aeiou][aeiou]") w_vowel I).
    apply (part_more _ _ _ (str "[^aeiou][aeiou][aeiou]") w_consonant I). apply (part_more _ _ _ (str "[aeiou][aeiou]") w_consonant I). apply (part_more _ _ _ (str "[aeiou]") w_vowel I). exact (part_one _ _ w_vowel).
Qed.

(** Alternatives of words. *)
Fixpoint or_text (l : list text) : text := match l with [] => [] | [t] => t | t :: l' => t ++ str "|" ++ or_text l' end.
Lemma word_parts t : is_word t = true -> t <> [] -> writes_parts (map sy t) t.
Proof.
  induction t as [|c t IH]; [intros _ H; destruct (H eq_refl)|]. intros H _. unfold is_word in H. cbn [forallb] in H. apply andb_true_iff in H. destruct H as [Hc H].
  assert (Hs : is_sign c = true) by (unfold is_sign; rewrite Hc; reflexivity).
  destruct t as [|d t]; [exact (sym_one c Hs)|]. apply (sym_more c (map sy (d :: t)) (d :: t) Hs). apply IH; [exact H|discriminate].
Qed.
Lemma or_written l : l <> [] -> forallb (fun t => is_word t && negb (length t =? 0)) l = true -> writes_branches (map (map sy) l) (or_text l).
Proof.
  induction l as [|t l IH]; [intros H; destruct (H eq_refl)|]. intros _ H. cbn [forallb] in H. apply andb_true_iff in H. destruct H as [Ht H]. apply andb_true_iff in Ht. destruct Ht as [Ht Hl].
  assert (P : writes_parts (map sy t) t) by (apply word_parts; [exact Ht|intros ->; discriminate Hl]).
  destruct l as [|t' l]; [exact (wb_one _ _ P)|]. refine (wb_more (map sy t) t [] (map (map sy) (t' :: l)) (or_text (t' :: l)) P no_spaces _). apply IH; [discriminate|exact H].
Qed.
Definition states_text : text := str "(al|ak|az|ar|ca|co|ct|de|fl|ga|hi|id|il|in|ia|ks|ky|la|me|md|ma|mi|mn|ms|mo|mt|ne|nv|nh|nj|nm|ny|nc|nd|oh|ok|or|pa|ri|sc|sd|tn|tx|ut|vt|va|wa|wv|wi|wy)".
Definition state_names : list text := map str
  ["al"; "ak"; "az"; "ar"; "ca"; "co"; "ct"; "de"; "fl"; "ga"; "hi"; "id"; "il"; "in"; "ia"; "ks"; "ky"; "la"; "me"; "md"; "ma"; "mi"; "mn"; "ms"; "mo"; "mt"; "ne"; "nv"; "nh"; "nj"; "nm"; "ny"; "nc"; "nd"; "oh"; "ok"; "or"; "pa"; "ri"; "sc"; "sd"; "tn"; "tx"; "ut"; "vt"; "va"; "wa"; "wv"; "wi"; "wy"]%string.
Definition a_state : pat := Group (map (map sy) state_names).
Lemma w_states : writes a_state states_text.
Proof. refine (w_group _ [] (or_text state_names) no_spaces _). apply or_written; [discriminate|vm_compute; reflexivity]. Qed.
Lemma w15 u : writes_script u [Pattern [[Repeated a_state 1 None]] []] None (str "STATE=" ++ states_text ++ str ";STATE+").
Proof.
  exists [str "STATE=" ++ states_text; str "STATE+"], None. split; [|split; [|exact I]].
  - apply (lines_more (str "STATE=" ++ states_text) 59%N (str "STATE+")); [apply nothing_sep; vm_compute; reflexivity|right; reflexivity|]. apply lines_one. apply nothing_sep; reflexivity.
  - apply rd_define with (str "STATE=" ++ states_text) (str "STATE") states_text [(str "STATE", states_text)]; [constructor| |exact (insert_bind _ _ [])|].
    { apply (says_macro (str "STATE") states_text); vm_compute; reflexivity. }
    apply rd_line with (states_text ++ str "+"); [exact (substitute_spec [(str "STATE", states_text)] (named_ok [(str "STATE", states_text)] eq_refl) (str "STATE+"))| |constructor].
    apply says_line. apply line_plain. apply part_one. refine (w_repeated a_state states_text [] 1 None (str "+") w_states I no_spaces wr_some).
Qed.

(** ** They are answerable *)
Lemma plain_ok bs rs : plain_pattern bs = true -> answerable (bs, rs).
Proof. intros H. left. exact H. Qed.
Lemma block_ok k bank post m : sum_all (map lasting post) = Some m -> forallb branched post = true ->
  list_sum (map size post) + block_size k bank < 16 * 1024 -> ~ speaks WORD_END (Group [Block k bank :: post]) -> answerable ([Block k bank :: post], []).
Proof.
  intros H1 H2 H3 H4. right. exists [], k, bank, post, 0, m. cbn [fst snd app]. split; [reflexivity|]. split; [reflexivity|]. split; [exact H1|]. split; [exact H2|]. split; [exact H3|].
  split; [discriminate|]. split; [intros []|exact H4].
Qed.
(** Words and blocks do not speak of word ends. *)
Lemma word_quiet k bank t : is_word t = true -> ~ speaks WORD_END (Group [Block k bank :: map sy t]).
Proof.
  intros Ht H. inversion H as [| | | |bs b p Hb Hp Hs| |]; subst. destruct Hb as [<-|[]]. destruct Hp as [<-|Hp]; [inversion Hs|].
  apply in_map_iff in Hp. destruct Hp as (c & <- & Hc). unfold sy in Hs. inversion Hs as [E | | | | | |].
  apply is_word_ok in Ht. rewrite Forall_forall in Ht. assert (Hc' := SyntaxProofs4.ascii_char c (Ht c Hc)). rewrite <- E in Hc'. unfold WORD_END in Hc'. lia.
Qed.

(** The queries, with the lines they come to. *)
Definition examples : list (text * list line) :=
  [(str "helloworld", helloworld);
   (str "<smiles>", [smiles]);
   (str "<smiles>; .*ss.*", [smiles; Pattern [[any] ++ spelled "ss" ++ [any]] []]);
   (str "ahumongoussentencewithmultiplewords", [Pattern [spelled "ahumongoussentencewithmultiplewords"] []]);
   (str "ahumongoussentincewithmultiplewords !' !1", [Pattern [spelled "ahumongoussentincewithmultiplewords"] [Punctuation; Fuzz 1]]);
   (str "3 3 8 7; (LOOHNEWHOOPCRLOVAIDYTILEAUQWOSLLPEASSOEHNCS:-) !'", sentence);
   (str "hen !1; hay !1", [Pattern [spelled "hen"] [Fuzz 1]; Pattern [spelled "hay"] [Fuzz 1]]);
   (str "breadfast !2", [Pattern [spelled "breadfast"] [Fuzz 2]]);
   (str ".{8}pi.{6} !_", [Pattern [[Repeated Dot 8 (Some 8)] ++ spelled "pi" ++ [Repeated Dot 6 (Some 6)]] [WordEnds]]);
   (str ".*cat.*; (string:+); 10", cat_query);
   (str "(hello world:^)", [Pattern [[Operator OSubstring (spelled "helloworld")]] []]);
   (str "V=[aeiou]; C=[^aeiou]; CVCCVV", [Pattern cvccvv []]);
   (str "STATE=" ++ states_text ++ str ";STATE+", [Pattern [[Repeated a_state 1 None]] []]);
   (str "a..mong.u.s.ntencewithmul.iplewords", [Pattern [spelled "a" ++ [Dot; Dot] ++ spelled "mong" ++ [Dot] ++ spelled "u" ++ [Dot] ++ spelled "s" ++ [Dot] ++ spelled "ntencewithmul" ++ [Dot] ++ spelled "iplewords"] []]);
   (str "<pasta-1>led", [Pattern [Block (TransDelete 1) (map char_of (str "pasta")) :: spelled "led"] []])].
Ltac plain := apply plain_ok; vm_compute; reflexivity.
Lemma smiles_ok : answerable ([[Block Standard (map char_of (str "smiles"))]], []).
Proof. apply (block_ok _ _ [] 0); [reflexivity|reflexivity|apply Nat.ltb_lt; vm_compute; reflexivity|exact (word_quiet _ _ [] eq_refl)]. Qed.
Lemma pasta_ok : answerable ([Block (TransDelete 1) (map char_of (str "pasta")) :: spelled "led"], []).
Proof. apply (block_ok _ _ (spelled "led") 3); [reflexivity|reflexivity|apply Nat.ltb_lt; vm_compute; reflexivity|exact (word_quiet _ _ (str "led") eq_refl)]. Qed.
Lemma good u ls t : writes_query ls t -> patterns ls <> [] -> Forall answerable (patterns ls) -> good_query u ls None t.
Proof. intros H1 H2 H3. constructor; [apply query_script; exact H1|exact H2|exact H3]. Qed.
Ltac all_plain := cbn [patterns helloworld sentence cat_query smiles]; repeat (apply Forall_cons; [try plain|]); try apply Forall_nil.
Lemma examples_good u t ls : In (t, ls) examples -> good_query u ls None t.
Proof.
  intros H. cbn [examples In] in H.
  repeat (destruct H as [H|H]; [injection H as <- <-|]); [| | | | | | | | | | | | | | |destruct H].
  - apply good; [exact w1|discriminate|all_plain].
  - apply good; [exact (wq_one _ _ w2)|discriminate|all_plain; exact smiles_ok].
  - apply good; [exact w3|discriminate|all_plain; exact smiles_ok].
  - apply good; [exact w13|discriminate|all_plain].
  - apply good; [exact w4|discriminate|all_plain].
  - apply good; [exact w5|discriminate|all_plain].
  - apply good; [exact w6|discriminate|all_plain].
  - apply good; [exact w7|discriminate|all_plain].
  - apply good; [exact w8|discriminate|all_plain].
  - apply good; [exact w9|discriminate|all_plain].
  - apply good; [exact w10|discriminate|all_plain].
  - constructor; [exact (w14 u)|discriminate|all_plain].
  - constructor; [exact (w15 u)|discriminate|all_plain].
  - apply good; [exact w11|discriminate|all_plain].
  - apply good; [exact w12|discriminate|all_plain; exact pasta_ok].
Qed.
