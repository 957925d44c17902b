(** What the examples ask for, in plain terms; and the one that finds too much. *)
From Coq Require Import String Lia Permutation.
From Verif Require Import EndProofs PropApps PropSyntax PropScript ScriptProofs FlatQuery ExampleProofs.
From Verif Require Import Syntax EndSpec.
Local Open Scope list_scope.

(** Patterns without requests that speak neither of word ends nor of punctuation. *)
Definition quiet (bs : list (list pat)) : Prop := ~ speaks WORD_END (Group bs) /\ ~ speaks PUNCTUATION (Group bs).
Lemma fits_letters bs t : quiet bs -> (fits (bs, []) t <-> means (Group bs) (letters_of t)).
Proof.
  intros [H1 H2].
  assert (Hs : forall o, options_asked bs [] o -> significant o t = letters_of t /\ requested_fuzz o = 0).
  { intros o (O1 & O2 & O3). split; [|unfold requested_fuzz; rewrite O3; reflexivity].
    unfold significant, letters_of. apply filter_ext. intros c. destruct (Nat.eqb_spec c 27) as [->|].
    - destruct (explicit_word_boundaries o) as [[|]|]; try reflexivity. destruct (proj1 O1 eq_refl) as [[]|H]; destruct (H1 H).
    - destruct (Nat.eqb_spec c 26); [|reflexivity]. destruct (explicit_punctuation o) as [[|]|]; try (subst; reflexivity). destruct (proj1 O2 eq_refl) as [[]|H]; destruct (H2 H). }
  assert (He : ~ In WORD_END (letters_of t)) by (intros H; apply filter_In in H; destruct H as [_ H]; discriminate H).
  unfold fits. cbn [fst snd]. split.
  - intros (o & Ho & u & k & Hk & Hf & Hw). destruct (Hs o Ho) as [E1 E2]. rewrite E2 in Hk. assert (k = 0) by lia. subst k. apply no_edits in Hf. rewrite E1 in Hf. subst u.
    destruct Hw as (v & n & Ev & Hv). destruct n as [|n]; [rewrite Ev, app_nil_r; exact Hv|]. destruct He. rewrite Ev. apply in_app_iff. right. left. reflexivity.
  - intros Hm. assert (Ho : options_asked bs [] (mkExprOptions None None None)).
    { split; [|split; [|reflexivity]]; (split; [discriminate|]); intros [[]|H]; [destruct (H1 H)|destruct (H2 H)]. }
    exists (mkExprOptions None None None). split; [exact Ho|]. destruct (Hs _ Ho) as [E1 E2]. exists (letters_of t), 0. rewrite E1, E2. split; [lia|]. split; [apply no_edits; reflexivity|].
    exists (letters_of t), 0. split; [rewrite app_nil_r; reflexivity|exact Hm].
Qed.
(** Whether a pattern speaks of a symbol that is not a letter. *)
Fixpoint mute (p : pat) : bool :=
  match p with
  | Symbol s => s <? 26
  | Length _ => false
  | Class false items => forallb (fun i => match i with Single c => char_of c <? 26 | Range _ _ => false end) items
  | Operator OSuperset _ => false
  | Group bs => forallb (forallb mute) bs
  | Operator _ ts => forallb mute ts
  | Repeated p _ _ => mute p
  | _ => true
  end.
Lemma mute_ok s : 26 <= s -> forall p, speaks s p -> mute p = false.
Proof.
  intros Hs. induction 1 as [|n _|items (i & Hi & Hc)|ts|bs b p Hb Hp _ IH|o ts p Hp _ IH|p l m _ IH]; cbn [mute].
  - apply Nat.ltb_ge. exact Hs.
  - reflexivity.
  - apply not_true_is_false. intros F. rewrite forallb_forall in F. specialize (F i Hi). destruct i as [c|a b]; [|discriminate F]. cbn [item_covers] in Hc. subst s. apply Nat.ltb_lt in F. lia.
  - reflexivity.
  - apply not_true_is_false. intros F. rewrite forallb_forall in F. specialize (F b Hb). rewrite forallb_forall in F. rewrite (F p Hp) in IH. discriminate IH.
  - destruct o; try reflexivity; apply not_true_is_false; intros F; rewrite forallb_forall in F; rewrite (F p Hp) in IH; discriminate IH.
  - exact IH.
Qed.
Lemma mute_quiet bs : mute (Group bs) = true -> quiet bs.
Proof. intros H. split; intros Hs; apply mute_ok in Hs; try (unfold WORD_END, PUNCTUATION; lia); congruence. Qed.

(** ** Words *)
Definition symbols_of (t : text) : list char := map char_of t.
Lemma word_cats t w : cats (map means (map sy t)) w <-> w = symbols_of t.
Proof.
  revert w. induction t as [|c t IH]; intros w; cbn [map cats fold_right symbols_of].
  - reflexivity.
  - split.
    + intros (u & v & -> & Hu & Hv). cbn in Hu. subst u. apply IH in Hv. subst v. reflexivity.
    + intros ->. exists [char_of c], (symbols_of t). split; [reflexivity|]. split; [reflexivity|]. apply IH. reflexivity.
Qed.
Lemma group_one ps w : means (Group [ps]) w <-> cats (map means ps) w.
Proof. cbn [means map]. split; [intros (L & [<-|[]] & H); exact H|intros H; eexists; split; [left; reflexivity|exact H]]. Qed.
Lemma cats_one L w : cats [L] w <-> L w.
Proof. cbn [cats fold_right]. split; [intros (u & v & -> & Hu & Hv); unfold empty_string in Hv; subst v; rewrite app_nil_r; exact Hu|intros H; exists w, []; rewrite app_nil_r; repeat split; exact H]. Qed.

Lemma any_means w : means any w <-> Forall letter w.
Proof.
  cbn [means any]. split.
  - intros (n & _ & _ & H). revert w H. induction n as [|n IH]; intros w H; [unfold power, empty_string in H; subst w; constructor|].
    destruct H as (u & v & -> & (s & -> & Hs) & Hv). constructor; [exact Hs|exact (IH v Hv)].
  - intros H. exists (length w). split; [lia|]. split; [discriminate|]. induction H as [|s w Hs _ IH]; [reflexivity|]. exists [s], w. split; [reflexivity|]. split; [exists s; split; [reflexivity|exact Hs]|exact IH].
Qed.
Lemma letters_small w : Forall (fun c => c < 28) w -> Forall letter (letters_of w).
Proof.
  intros H. apply Forall_forall. intros c Hc. apply filter_In in Hc. destruct Hc as [Hi Hc]. rewrite Forall_forall in H. specialize (H c Hi). unfold letter.
  destruct (Nat.eqb_spec c 26); [subst; discriminate|]. destruct (Nat.eqb_spec c 27); [subst; discriminate|]. lia.
Qed.

(** ** What is asked for *)
Lemma ask_helloworld p : wanted helloworld p <-> letters_of (phrase_text p) = symbols_of (str "helloworld").
Proof.
  unfold wanted. cbn [patterns helloworld]. split.
  - intros H. inversion H as [|? ? H1 _]; subst. apply (fits_letters _ _ (mute_quiet [spelled "helloworld"] eq_refl)) in H1. apply group_one in H1. exact (proj1 (word_cats (str "helloworld") _) H1).
  - intros H. constructor; [|constructor]. apply (fits_letters _ _ (mute_quiet [spelled "helloworld"] eq_refl)). apply group_one. exact (proj2 (word_cats (str "helloworld") _) H).
Qed.
Definition smiles_ss : list line := [smiles; Pattern [[any] ++ spelled "ss" ++ [any]] []].
Lemma ask_smiles p : wanted smiles_ss p <->
  Permutation (symbols_of (str "smiles")) (letters_of (phrase_text p)) /\ exists a b, letters_of (phrase_text p) = a ++ symbols_of (str "ss") ++ b.
Proof.
  unfold wanted. cbn [patterns smiles_ss smiles].
  assert (Q1 : quiet [[Block Standard (map char_of (str "smiles"))]]) by (apply mute_quiet; reflexivity).
  assert (Q2 : quiet [[any] ++ spelled "ss" ++ [any]]) by (apply mute_quiet; reflexivity).
  set (L := letters_of (phrase_text p)).
  assert (B : means (Group [[Block Standard (map char_of (str "smiles"))]]) L <-> Permutation (symbols_of (str "smiles")) L).
  { rewrite group_one. cbn [map]. apply cats_one. }
  assert (C : Forall letter L -> (means (Group [[any] ++ spelled "ss" ++ [any]]) L <-> exists a b, L = a ++ symbols_of (str "ss") ++ b)).
  { intros HL. rewrite group_one. change (map means ([any] ++ spelled "ss" ++ [any])) with ([means any] ++ map means (map sy (str "ss")) ++ [means any]). rewrite ExpandProofs2.cats_app. split.
    - intros (a & x & E & _ & Hx). apply ExpandProofs2.cats_app in Hx. destruct Hx as (s & b & Ex & Hs & _). exists a, b. rewrite E, Ex. f_equal. f_equal. exact (proj1 (word_cats (str "ss") s) Hs).
    - intros (a & b & E). rewrite E in HL. rewrite !Forall_app in HL. destruct HL as [Ha [_ Hb]]. exists a, (symbols_of (str "ss") ++ b). split; [exact E|]. split; [apply cats_one, any_means; exact Ha|].
      apply ExpandProofs2.cats_app. exists (symbols_of (str "ss")), b. split; [reflexivity|]. split; [exact (proj2 (word_cats (str "ss") _) eq_refl)|apply cats_one, any_means; exact Hb]. }
  assert (D : Permutation (symbols_of (str "smiles")) L -> Forall letter L).
  { intros H. apply (Permutation_Forall H). vm_compute. repeat constructor. }
  split.
  - intros H. inversion H as [|? ? H1 H2]; subst. inversion H2 as [|? ? H3 _]; subst. apply (fits_letters _ _ Q1) in H1. apply (fits_letters _ _ Q2) in H3. fold L in H1, H3. apply B in H1. split; [exact H1|]. apply (C (D H1)). exact H3.
  - intros [H1 H2]. constructor; [apply (fits_letters _ _ Q1), B, H1|constructor; [apply (fits_letters _ _ Q2); fold L; apply (C (D H1)), H2|constructor]].
Qed.
Definition hello_run : list line := [Pattern [[Operator OSubstring (spelled "helloworld")]] []].
Lemma singles_split t a b c : map means (map sy t) = a ++ b ++ c -> exists x y z, t = x ++ y ++ z /\ b = map means (map sy y).
Proof.
  intros E. apply map_eq_app in E. destruct E as (l1 & l2 & E & <- & E2). apply map_eq_app in E2. destruct E2 as (l3 & l4 & -> & E3 & _).
  apply map_eq_app in E. destruct E as (x & yz & -> & <- & E). apply map_eq_app in E. destruct E as (y & z & -> & <- & <-). exists x, y, z. auto.
Qed.
Lemma ask_run p : wanted hello_run p <-> exists a b, symbols_of (str "helloworld") = a ++ letters_of (phrase_text p) ++ b.
Proof.
  unfold wanted. cbn [patterns hello_run].
  assert (Q : quiet [[Operator OSubstring (spelled "helloworld")]]) by (apply mute_quiet; reflexivity).
  set (L := letters_of (phrase_text p)).
  assert (B : means (Group [[Operator OSubstring (spelled "helloworld")]]) L <-> exists a b, symbols_of (str "helloworld") = a ++ L ++ b).
  { rewrite group_one. cbn [map]. rewrite cats_one. cbn [means]. split.
    - intros (a & b & c & E & H). apply singles_split in E. destruct E as (x & y & z & E & ->). apply word_cats in H. subst L. rewrite H. exists (symbols_of x), (symbols_of z). unfold symbols_of. rewrite E, !map_app. reflexivity.
    - intros (a & b & E). unfold symbols_of in E. apply map_eq_app in E. destruct E as (x & yz & E & <- & E2). apply map_eq_app in E2. destruct E2 as (y & z & -> & E2 & <-).
      exists (map means (map sy x)), (map means (map sy y)), (map means (map sy z)). split; [unfold spelled; rewrite E, !map_app; reflexivity|]. apply word_cats. symmetry. exact E2. }
  split.
  - intros H. inversion H as [|? ? H1 _]; subst. apply (fits_letters _ _ Q) in H1. apply B. exact H1.
  - intros H. constructor; [|constructor]. apply (fits_letters _ _ Q), B, H.
Qed.
Definition state_chain : list line := [Pattern [[Repeated a_state 1 None]] []].
Lemma ask_states p : wanted state_chain p <-> exists ns, ns <> [] /\ Forall (fun n => In n state_names) ns /\ letters_of (phrase_text p) = symbols_of (concat ns).
Proof.
  unfold wanted. cbn [patterns state_chain].
  assert (Q : quiet [[Repeated a_state 1 None]]) by (apply mute_quiet; vm_compute; reflexivity).
  set (L := letters_of (phrase_text p)).
  assert (A : forall w, means a_state w <-> exists n, In n state_names /\ w = symbols_of n).
  { intros w. unfold a_state. generalize state_names. intros names. cbn [means]. split.
    - intros (M & HM & Hw). apply in_map_iff in HM. destruct HM as (b & <- & Hb). apply in_map_iff in Hb. destruct Hb as (n & <- & Hn). exists n. split; [exact Hn|]. apply word_cats. exact Hw.
    - intros (n & Hn & ->). exists (cats (map means (map sy n))). split; [|apply word_cats; reflexivity]. apply in_map_iff. exists (map sy n). split; [reflexivity|]. apply in_map. exact Hn. }
  assert (B : means (Group [[Repeated a_state 1 None]]) L <-> exists ns, ns <> [] /\ Forall (fun n => In n state_names) ns /\ L = symbols_of (concat ns)).
  { rewrite group_one. cbn [map]. rewrite cats_one. clear -A.
    assert (P : forall n w, power (means a_state) n w <-> exists ns, length ns = n /\ Forall (fun n => In n state_names) ns /\ w = symbols_of (concat ns)).
    { induction n as [|n IH]; intros w; cbn [power].
      - split; [intros H; unfold empty_string in H; subst w; exists []; split; [reflexivity|split; [constructor|reflexivity]]|intros (ns & Hl & _ & ->); destruct ns; [reflexivity|discriminate Hl]].
      - split.
        + intros (u & v & -> & Hu & Hv). apply A in Hu. destruct Hu as (m & Hm & ->). apply IH in Hv. destruct Hv as (ns & Hl & Hns & ->). exists (m :: ns). split; [cbn [length]; lia|]. split; [constructor; assumption|]. unfold symbols_of. cbn [concat]. rewrite map_app. reflexivity.
        + intros (ns & Hl & Hns & ->). destruct Hns as [|m ns Hm Hns]; [discriminate Hl|]. cbn [length] in Hl. exists (symbols_of m), (symbols_of (concat ns)). split; [unfold symbols_of; cbn [concat]; apply map_app|]. split; [apply A; exists m; auto|apply IH; exists ns; split; [lia|auto]]. }
    change (means (Repeated a_state 1 None) L) with (exists n, 1 <= n /\ (forall m, None = Some m -> n <= m) /\ power (means a_state) n L). split.
    - intros (n & Hn & _ & H). apply P in H. destruct H as (ns & Hl & Hns & E). exists ns. split; [destruct ns; [cbn in Hl; lia|discriminate]|auto].
    - intros (ns & Hn & Hns & E). exists (length ns). split; [destruct ns; [congruence|cbn; lia]|]. split; [discriminate|]. apply P. exists ns. auto. }
  split.
  - intros H. inversion H as [|? ? H1 _]; subst. apply (fits_letters _ _ Q) in H1. apply B. exact H1.
  - intros H. constructor; [|constructor]. apply (fits_letters _ _ Q), B, H.
Qed.
Definition pasta_led : list line := [Pattern [Block (TransDelete 1) (map char_of (str "pasta")) :: spelled "led"] []].
Lemma ask_pasta p : wanted pasta_led p <-> exists w x, letters_of (phrase_text p) = w ++ symbols_of (str "led") /\ Permutation (symbols_of (str "pasta")) (w ++ [x]).
Proof.
  unfold wanted. cbn [patterns pasta_led].
  assert (Q : quiet [Block (TransDelete 1) (map char_of (str "pasta")) :: spelled "led"]) by (apply mute_quiet; reflexivity).
  set (L := letters_of (phrase_text p)).
  assert (B : means (Group [Block (TransDelete 1) (map char_of (str "pasta")) :: spelled "led"]) L <-> exists w x, L = w ++ symbols_of (str "led") /\ Permutation (symbols_of (str "pasta")) (w ++ [x])).
  { rewrite group_one. change (map means (?b :: ?l)) with (means b :: map means l). cbn [map cats fold_right]. fold (cats (map means (spelled "led"))). split.
    - intros (w & v & E & (r & Hr & Hl) & Hv). assert (Ev := proj1 (word_cats (str "led") v) Hv). subst v. destruct r as [|x [|? ?]]; [discriminate Hl| |discriminate Hl]. exists w, x. split; [exact E|exact Hr].
    - intros (w & x & E & H). exists w, (symbols_of (str "led")). split; [exact E|]. split; [exists [x]; split; [exact H|reflexivity]|]. exact (proj2 (word_cats (str "led") _) eq_refl). }
  split.
  - intros H. inversion H as [|? ? H1 _]; subst. apply (fits_letters _ _ Q) in H1. apply B. exact H1.
  - intros H. constructor; [|constructor]. apply (fits_letters _ _ Q), B, H.
Qed.

(** ** The example that finds too much *)
Definition hale : pat := Class false (map Single (str "hale")).
Definition h_w : list pat := spelled "h" ++ [Dot; Dot; Dot; Dot] ++ spelled "_w" ++ [Dot; Dot; Dot; Dot].
Definition hale_owl : list pat := [Repeated hale 1 None; Block Standard (map char_of (str "owl")); any].
Definition hello_text : text := str "h.... _ w....; <hello+>; <world+5>; [hale]+<owl>.*".
Definition hello_lines : list line :=
  [Pattern [h_w] []; Pattern [[Block Super (map char_of (str "hello"))]] []; Pattern [[Block (TransAdd 5) (map char_of (str "world"))]] []; Pattern [hale_owl] []].
Lemma hello_written : writes_query hello_lines hello_text.
Proof.
  apply (more_lines _ (str "h.... _ w....") _ (str " <hello+>; <world+5>; [hale]+<owl>.*")); [|apply (more_lines _ (str " <hello+>") _ (str " <world+5>; [hale]+<owl>.*")); [|apply (more_lines _ (str " <world+5>") _ (str " [hale]+<owl>.*")); [|apply wq_one]]].
  - apply line_plain. syms.
  - apply (line_plain_space _ (str "<hello+>")). apply part_one. exact (block_written _ (str "hello") (str "+>") eq_refl ltac:(discriminate) (wk_super 5)).
  - apply (line_plain_space _ (str "<world+5>")). apply part_one. exact (block_written _ (str "world") (str "+5>") eq_refl ltac:(discriminate) (wk_add 5 (str "5") 5 (num1 53%N eq_refl))).
  - apply (line_plain_space _ (str "[hale]+<owl>.*")). apply (part_more _ (str "[hale]+") _ (str "<owl>.*")); [|exact I|apply (part_more _ (str "<owl>") _ (str ".*")); [|exact I|exact (part_one _ _ w_any)]].
    + refine (rep_class (map Single [104; 97; 108; 101]%N) [[104]; [97]; [108]; [101]]%N 1 None (str "+") _ _ wr_some); [|discriminate]. cbn [map]. repeat (apply Forall2_cons; [apply wi_single; unfold ascii_letter; lia|]). constructor.
    + exact (block_written _ (str "owl") (str ">") eq_refl ltac:(discriminate) (wk_plain 3)).
Qed.
Definition hello_words : list word := map text_word [str "hlool"; str "wedra"].
Lemma hello_printed u : cli true u 100 100 None 2 hello_text hello_words = Ok [str "hlool wedra"].
Proof. vm_compute. reflexivity. Qed.
Lemma hello_sorted : sorted_words hello_words.
Proof. apply sorted_b_ok. vm_compute. reflexivity. Qed.
Lemma hello_unwanted : ~ wanted hello_lines hello_words.
Proof.
  intros H. unfold wanted in H. cbn [patterns hello_lines] in H. do 3 (apply Forall_inv_tail in H). apply Forall_inv in H.
  apply (fits_letters _ _ (mute_quiet [hale_owl] eq_refl)) in H. apply group_one in H.
  assert (EL : letters_of (phrase_text hello_words) = [7; 11; 14; 14; 11; 22; 4; 3; 17; 0]) by (vm_compute; reflexivity). rewrite EL in H. clear EL.
  cbn [hale_owl map cats fold_right] in H. destruct H as (a & r & E & (n & Hn & _ & Ha) & b & r2 & -> & Hb & _).
  assert (P : forall n w, power (means hale) n w -> length w = n /\ Forall (fun c => In c [7; 0; 11; 4]) w).
  { clear. induction n as [|n IH]; intros w H; [unfold power, empty_string in H; subst w; split; [reflexivity|constructor]|].
    destruct H as (x & v & -> & (s & -> & i & Hi & Hs) & Hv). destruct (IH v Hv) as [Hl Hf]. split; [cbn [length app]; lia|]. constructor; [|exact Hf].
    apply in_map_iff in Hi. destruct Hi as (c & <- & Hc). cbn [item_covers] in Hs. subst s. change (In c [104; 97; 108; 101]%N) in Hc. destruct Hc as [<-|[<-|[<-|[<-|[]]]]]; vm_compute; auto. }
  destruct (P n a Ha) as [Hl Hf]. clear P Ha. assert (Lb := Permutation_length Hb). change (length (map char_of (str "owl"))) with 3 in Lb.
  assert (Hw := Permutation_in 22 Hb ltac:(vm_compute; auto)).
  destruct b as [|b1 [|b2 [|b3 [|? ?]]]]; try discriminate Lb.
  destruct a as [|a1 [|a2 [|a3 a]]]; [cbn [length] in Hl; lia| | |].
  - cbn [app] in E. injection E as _ <- <- <- _. destruct Hw as [H|[H|[H|[]]]]; discriminate H.
  - cbn [app] in E. injection E as _ _ <- <- <- _. destruct Hw as [H|[H|[H|[]]]]; discriminate H.
  - cbn [app] in E. injection E as _ _ <- _. inversion Hf as [|? ? _ Hf2]; subst. inversion Hf2 as [|? ? _ Hf3]; subst. inversion Hf3 as [|? ? H _]; subst. destruct H as [H|[H|[H|[H|[]]]]]; discriminate H.
Qed.
Lemma hello_line : AppsSpec.spaced hello_words (str "hlool wedra").
Proof. exact (AppsSpec.spaced_more (text_word (str "hlool")) [text_word (str "wedra")] (str "wedra") (AppsSpec.spaced_one (text_word (str "wedra")))). Qed.
