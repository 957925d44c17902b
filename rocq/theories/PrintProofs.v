(** Proofs for C41: printing and parsing again. *)
From Coq Require Import String.
From Verif Require Export SyntaxProofs6 Printable.
Local Open Scope list_scope.

(** ** Numbers *)
Lemma decimal_app x : forall y, decimal (x ++ y) = fold_left (fun v c => (v * 10 + (c - 48))%N) y (decimal x).
Proof. intros y. unfold decimal. apply fold_left_app. Qed.
Lemma decimal_last x c : decimal (x ++ [c]) = (decimal x * 10 + (c - 48))%N.
Proof. rewrite decimal_app. reflexivity. Qed.
Lemma digits_from_spec f : forall n acc, (n < 2 ^ N.of_nat f)%N -> digits acc ->
  exists d, digits_from f n acc = d ++ acc /\ digits (d ++ acc) /\ (f <> 0 -> d <> []) /\ decimal d = n.
Proof.
  induction f as [|f IH]; intros n acc Hn Ha; cbn [digits_from].
  - exists []. split; [reflexivity|]. split; [exact Ha|]. split; [congruence|]. cbn in Hn. unfold decimal. cbn. lia.
  - assert (Hd : is_digit (48 + n mod 10)%N = true). { apply digit_range. pose proof (N.mod_lt n 10). lia. }
    destruct (N.ltb n 10) eqn:E.
    + apply N.ltb_lt in E. exists [(48 + n mod 10)%N]. split; [reflexivity|]. split; [constructor; assumption|]. split; [discriminate|]. unfold decimal. cbn [fold_left]. rewrite N.mod_small by exact E. lia.
    + apply N.ltb_ge in E. destruct (IH (n / 10)%N ((48 + n mod 10)%N :: acc)) as (d & E1 & E2 & E3 & E4).
      * rewrite Nat2N.inj_succ, N.pow_succ_r' in Hn. pose proof (N.div_mod n 10). pose proof (N.mod_lt n 10). nia.
      * constructor; assumption.
      * exists (d ++ [(48 + n mod 10)%N]). rewrite <- app_assoc. cbn [app]. split; [exact E1|]. split; [exact E2|]. split; [intros _ H; apply app_eq_nil in H; destruct H; discriminate|].
        rewrite decimal_last, E4. pose proof (N.div_mod n 10). lia.
Qed.
Lemma show_nat_numeral n : fits64 n = true -> numeral (show_nat n) n.
Proof.
  unfold fits64. rewrite N.ltb_lt. intros H. unfold show_nat. set (f := S (N.to_nat (N.size (N.of_nat n)))).
  destruct (digits_from_spec f (N.of_nat n) []) as (d & E1 & E2 & E3 & E4).
  - unfold f. rewrite Nat2N.inj_succ, N2Nat.id, N.pow_succ_r'. pose proof (N.size_gt (N.of_nat n)). lia.
  - constructor.
  - rewrite E1. rewrite app_nil_r in *. split; [exact E2|]. split; [apply E3; discriminate|]. rewrite E4. split; [exact H|]. rewrite Nat2N.id. reflexivity.
Qed.

(** ** Classes *)
Definition cp (c : char) : N := if c =? PUNCTUATION then 39%N else if c =? WORD_END then 95%N else (97 + N.of_nat c)%N.
Lemma into_cp c : c < 28 -> into_char c = Ok (cp c).
Proof. intros H. unfold into_char, cp. change CHAR_MAX with 28. destruct (Nat.ltb_spec c 28); [|lia]. destruct (c =? PUNCTUATION); [reflexivity|]. destruct (c =? WORD_END); reflexivity. Qed.
Lemma cp_letter c : c < 26 -> ascii_letter (cp c).
Proof. intros H. unfold cp, PUNCTUATION, WORD_END, ascii_letter. destruct (Nat.eqb_spec c 26); [lia|]. destruct (Nat.eqb_spec c 27); [lia|]. lia. Qed.
Lemma cp_written c : c < 28 -> ascii_letter (cp c) \/ cp c = 39%N \/ cp c = 95%N.
Proof.
  intros H. destruct (Nat.lt_ge_cases c 26) as [Hc|Hc]; [left; apply cp_letter; exact Hc|right]. unfold cp, PUNCTUATION, WORD_END. destruct (Nat.eqb_spec c 26); [auto|]. destruct (Nat.eqb_spec c 27); [auto|]. lia.
Qed.
Lemma char_cp c : c < 28 -> char_of (cp c) = c.
Proof.
  intros H. unfold cp, char_of, in_range, PUNCTUATION, WORD_END. destruct (Nat.eqb_spec c 26) as [->|H1]; [reflexivity|]. destruct (Nat.eqb_spec c 27) as [->|H2]; [reflexivity|].
  destruct (N.leb_spec 65 (97 + N.of_nat c)); destruct (N.leb_spec (97 + N.of_nat c) 90); destruct (N.leb_spec 97 (97 + N.of_nat c)); destruct (N.leb_spec (97 + N.of_nat c) 122); cbn [andb]; try lia.
Qed.
Lemma char_cps l : Forall (fun c => c < 28) l -> map char_of (map cp l) = l.
Proof. induction 1 as [|c l H _ IH]; [reflexivity|]. cbn [map]. rewrite IH, char_cp by exact H. reflexivity. Qed.
Lemma show_chars l : Forall (fun c => c < 28) l -> mapM show_char l = Ok (map (fun c => [cp c]) l).
Proof. induction 1 as [|c l H _ IH]; [reflexivity|]. cbn [mapM map]. unfold show_char at 1. rewrite into_cp by exact H. cbn [bind]. rewrite IH. reflexivity. Qed.
Lemma concat_cps l : concat (map (fun c => [cp c]) l) = map cp l.
Proof. induction l as [|c l IH]; [reflexivity|]. cbn [map concat app]. rewrite IH. reflexivity. Qed.

Definition listed (cs : charset) : list char := filter (mem cs) (seq 0 28).
Lemma listed_def cs : listed cs = filter (mem cs) (seq 0 28).
Proof. reflexivity. Qed.
Lemma class_bits cs c : (cs < 2 ^ 28)%N -> mem cs c = true -> c < 28.
Proof.
  intros H Hc. destruct (Nat.lt_ge_cases c 28) as [Hl|Hl]; [exact Hl|]. exfalso. unfold mem in Hc. destruct (N.eq_dec cs 0) as [->|Hz]; [rewrite N.bits_0 in Hc; discriminate Hc|]. rewrite N.bits_above_log2 in Hc; [discriminate Hc|].
  apply N.lt_le_trans with 28%N; [apply N.log2_lt_pow2; lia|lia].
Qed.
Lemma listed_in cs c : (cs < 2 ^ 28)%N -> (In c (listed cs) <-> mem cs c = true).
Proof. intros H. rewrite listed_def, filter_In, in_seq. split; [tauto|]. intros Hc. pose proof (class_bits cs c H Hc). split; [lia|exact Hc]. Qed.
Lemma listed_small cs : Forall (fun c => c < 28) (listed cs).
Proof. apply Forall_forall. intros c Hc. rewrite listed_def, filter_In, in_seq in Hc. lia. Qed.
Lemma ones_listed cs : (cs < 2 ^ 28)%N -> filter (mem cs) (seq 0 32) = listed cs.
Proof.
  intros H. rewrite listed_def. change (seq 0 32) with (seq 0 28 ++ [28; 29; 30; 31]). rewrite filter_app.
  assert (E : filter (mem cs) [28; 29; 30; 31] = []). { assert (F : forall c, 28 <= c -> mem cs c = false) by (intros c Hc; destruct (mem cs c) eqn:E; [apply class_bits in E; [lia|exact H]|reflexivity]). cbn [filter]. rewrite !F by lia. reflexivity. }
  rewrite E, app_nil_r. reflexivity.
Qed.
Lemma listed_none cs : (cs < 2 ^ 28)%N -> listed cs = [] -> cs = 0%N.
Proof. intros H E. apply mem_ext. intros i. rewrite mem_0. destruct (mem cs i) eqn:Ei; [|reflexivity]. apply (listed_in cs i H) in Ei. rewrite E in Ei. destruct Ei. Qed.

Definition class_pat (cs : charset) : pat :=
  if N.eqb cs LETTERS then Dot
  else if N.eqb cs ALL then Class false [Range 97%N 122%N; Single 95%N; Single 39%N]
  else match listed cs with [c] => Symbol c | l => Class false (map (fun c => Single (cp c)) l) end.
Lemma class_written cs : cs <> 0%N -> (cs < 2 ^ 28)%N -> exists t, show_charset cs = Ok t /\ writes (class_pat cs) t.
Proof.
  intros Hz H. unfold show_charset, class_pat. destruct (N.eqb cs LETTERS); [exists (str "."); split; [reflexivity|constructor]|].
  destruct (N.eqb cs ALL).
  { exists (str "[a-z_']"). split; [reflexivity|]. refine (w_class [Range 97%N 122%N; Single 95%N; Single 39%N] [str "a-z"; str "_"; str "'"] _ _); [|discriminate].
    constructor; [|constructor; [|constructor; [|constructor]]]; [apply wi_range; unfold ascii_letter; lia|apply wi_single; auto|apply wi_single; auto]. }
  rewrite (ones_listed cs H). change CHAR_MAX with 28. rewrite <- listed_def. pose proof (listed_small cs) as Hs. destruct (listed cs) as [|c [|c' l]] eqn:E.
  - exfalso. apply Hz. apply listed_none; assumption.
  - rewrite show_chars by exact Hs. inversion Hs; subst. change (length [c] =? 0) with false. change (1 <? length [c]) with false. cbn [bind map concat app]. exists [cp c]. split; [reflexivity|].
    rewrite <- (char_cp c) at 1 by assumption. apply w_symbol. apply cp_written. assumption.
  - rewrite show_chars by exact Hs. change (length (c :: c' :: l) =? 0) with false. change (1 <? length (c :: c' :: l)) with true. cbn [bind]. eexists. split; [reflexivity|]. apply w_class; [|discriminate].
    clear E Hz H. induction Hs as [|x xs Hx _ IH]; cbn [map]; constructor; [|exact IH]. apply wi_single. apply cp_written. exact Hx.
Qed.
Lemma class_read cs : (cs < 2 ^ 28)%N -> tree (class_pat cs) = CharClass cs.
Proof.
  intros H. unfold class_pat. destruct (N.eqb_spec cs LETTERS) as [->|_]; [reflexivity|]. destruct (N.eqb_spec cs ALL) as [->|_]; [vm_compute; reflexivity|].
  assert (G : tree (Class false (map (fun c => Single (cp c)) (listed cs))) = CharClass cs).
  { cbn [tree]. f_equal. apply mem_ext. intros i. apply eq_true_iff_eq. rewrite class_mem, lists_covers. rewrite <- (listed_in cs i H). pose proof (listed_small cs) as Hs. rewrite Forall_forall in Hs. split.
    - intros (it & Hi & Hc). apply in_map_iff in Hi. destruct Hi as (c & <- & Hc'). cbn [item_covers] in Hc. subst i. rewrite char_cp by (apply Hs; exact Hc'). exact Hc'.
    - intros Hi. exists (Single (cp i)). split; [apply in_map_iff; exists i; auto|]. cbn [item_covers]. rewrite char_cp by (apply Hs; exact Hi). reflexivity. }
  destruct (listed cs) as [|c [|c' l]] eqn:E; [exact G| |exact G]. cbn [tree]. f_equal. apply mem_ext. intros i. apply eq_true_iff_eq. rewrite <- (listed_in cs i H), E, charset_of_mem, Nat.eqb_eq. cbn [In]. split; [intros ->; auto|intros [->|[]]; reflexivity].
Qed.
Lemma class_unrepeated cs : unrepeated (class_pat cs).
Proof. unfold class_pat. destruct (N.eqb cs LETTERS); [exact I|]. destruct (N.eqb cs ALL); [exact I|]. destruct (listed cs) as [|c [|c' l]]; exact I. Qed.

(** ** The pattern that is printed *)
Fixpoint seen (a : ast) : pat :=
  match a with
  | CharClass cs => class_pat cs
  | Alternatives l => Group (map (fun a => [seen a]) l)
  | Sequence [a] => seen a
  | Sequence l => Group [map seen l]
  | Substring l => Operator OSubstring (map seen l)
  | Repetition t mn mx => Repeated (seen t) mn mx
  | Anagram k bank => Block k bank
  end.
Definition shows := fix all (l : list ast) : outcome (list text) :=
    match l with [] => Ok [] | x :: l' => do t <- show x; do ts <- all l'; Ok (t :: ts) end.
Lemma seen_unrepeated a : ends_repeated a = false -> unrepeated (seen a).
Proof.
  induction a as [cs|l IH|l IH|l IH|t mn mx IH|k b] using ast_ind'; cbn [ends_repeated seen]; intros H; try exact I; try discriminate H; [apply class_unrepeated|].
  destruct l as [|a [|a' l]]; try exact I. inversion IH; subst. auto.
Qed.
Lemma no_length_class cs n : class_pat cs <> Length n.
Proof. unfold class_pat. destruct (N.eqb cs LETTERS); [discriminate|]. destruct (N.eqb cs ALL); [discriminate|]. destruct (listed cs) as [|c [|c' l]]; discriminate. Qed.
Lemma no_length a n : seen a <> Length n.
Proof.
  induction a as [cs|l IH|l IH|l IH|t mn mx IH|k b] using ast_ind'; cbn [seen]; try discriminate; [apply no_length_class|]. destruct l as [|a [|a' l]]; try discriminate. inversion IH; subst. assumption.
Qed.
Lemma seen_apart a sp t : apart (seen a) sp t.
Proof. pose proof (no_length a) as H. destruct (seen a) eqn:E; try exact I. exfalso. exact (H n eq_refl). Qed.

Definition Shown (a : ast) : Prop := printable a = true -> exists t, show a = Ok t /\ writes (seen a) t.
Lemma shows_all l : Forall Shown l -> forallb printable l = true -> exists ts, shows l = Ok ts /\ length ts = length l /\ Forall2 (fun a t => writes (seen a) t) l ts.
Proof.
  induction 1 as [|a l Ha _ IH]; cbn [forallb]; intros H; [exists []; repeat split; constructor|]. apply andb_true_iff in H. destruct H as [H1 H2]. destruct (Ha H1) as (t & E & Hw). destruct (IH H2) as (ts & Es & El & Hs).
  exists (t :: ts). cbn [shows]. fold shows. rewrite E. cbn [bind]. rewrite Es. cbn [bind length]. split; [reflexivity|]. split; [congruence|constructor; assumption].
Qed.
Lemma parts_written l : forall ts, l <> [] -> Forall2 (fun a t => writes (seen a) t) l ts -> writes_parts (map seen l) (concat ts).
Proof.
  induction l as [|a l IH]; intros ts Hn H; [congruence|]. inversion H as [|? t ? ts' Hw Hs]; subst. destruct l as [|a' l].
  - inversion Hs; subst. cbn [map concat]. apply wp_one; [exact Hw|constructor].
  - cbn [map concat]. pose proof (wp_more (seen a) t [] (map seen (a' :: l)) (concat ts') Hw (Forall_nil _) (seen_apart _ _ _)) as G. cbn [app] in G. apply G. apply IH; [discriminate|exact Hs].
Qed.
Lemma branches_written l : forall t ts a, writes (seen a) t -> Forall2 (fun a t => writes (seen a) t) l ts -> writes_branches (map (fun a => [seen a]) (a :: l)) (t ++ flat_map (fun x => str "|" ++ x) ts).
Proof.
  induction l as [|a' l IH]; intros t ts a Hw H; inversion H as [|? t' ? ts' Hw' Hs]; subst.
  - cbn [map flat_map]. apply wb_one. apply wp_one; [exact Hw|constructor].
  - cbn [flat_map]. rewrite <- app_assoc. pose proof (wp_one _ _ [] Hw (Forall_nil _)) as G. rewrite app_nil_r in G. pose proof (wb_more [seen a] t [] (map (fun a => [seen a]) (a' :: l)) (t' ++ flat_map (fun x => str "|" ++ x) ts') G (Forall_nil _)) as G2. cbn [app] in G2. apply G2. apply IH; assumption.
Qed.
Lemma bounds_written mn mx : fits64 mn = true -> match mx with Some m => fits64 m | None => true end = true ->
  writes_bounds mn mx (match mn, mx with
               | 0, None => str "*"
               | 0, Some 1 => str "?"
               | 1, None => str "+"
               | 0, Some m => str "{," ++ show_nat m ++ str "}"
               | m, None => str "{" ++ show_nat m ++ str ",}"
               | m, Some m' => if m =? m' then str "{" ++ show_nat m ++ str "}"
                               else str "{" ++ show_nat m ++ str "," ++ show_nat m' ++ str "}"
               end).
Proof.
  intros H1 H2. destruct mx as [m|].
  - destruct mn as [|mn].
    + destruct m as [|[|m]]; [apply wr_upto; apply show_nat_numeral; exact H2|apply wr_optional|apply wr_upto; apply show_nat_numeral; exact H2].
    + assert (G : writes_bounds (S mn) (Some m) (if S mn =? m then str "{" ++ show_nat (S mn) ++ str "}" else str "{" ++ show_nat (S mn) ++ str "," ++ show_nat m ++ str "}")).
      { destruct (Nat.eqb_spec (S mn) m) as [<-|_]; [apply wr_times|apply wr_between]; apply show_nat_numeral; assumption. }
      destruct mn; exact G.
  - destruct mn as [|[|mn]]; [apply wr_any|apply wr_some|apply wr_least; apply show_nat_numeral; exact H1].
Qed.
Lemma shown a : Shown a.
Proof.
  induction a as [cs|l IH|l IH|l IH|t mn mx IH|k b] using ast_ind'; unfold Shown; cbn [printable]; intros H.
  - apply andb_true_iff in H. destruct H as [H1 H2]. apply negb_true_iff, N.eqb_neq in H1. apply N.ltb_lt in H2. apply class_written; assumption.
  - apply andb_true_iff in H. destruct H as [H1 H2]. destruct (shows_all l IH H2) as (ts & E & El & Hs). cbn [show]. fold shows. rewrite E. cbn [bind]. inversion Hs as [|a t l' ts' Hw Hs']; subst; [discriminate H1|].
    eexists. split; [reflexivity|]. cbn [seen]. pose proof (w_group (map (fun a => [seen a]) (a :: l')) [] _ (Forall_nil _) (branches_written l' t ts' a Hw Hs')) as G. cbn [app] in G. rewrite <- app_assoc in G. exact G.
  - apply andb_true_iff in H. destruct H as [H1 H2]. destruct (shows_all l IH H2) as (ts & E & El & Hs). cbn [show]. fold shows. rewrite E. cbn [bind]. eexists. split; [reflexivity|].
    destruct l as [|a [|a' l]]; [discriminate H1| |].
    + inversion Hs as [|? t ? ts' Hw Hs']; subst. inversion Hs'; subst. change (1 <? length [a]) with false. cbn [concat seen]. rewrite app_nil_r. exact Hw.
    + change (1 <? length (a :: a' :: l)) with true. cbn [seen]. pose proof (parts_written (a :: a' :: l) ts ltac:(discriminate) Hs) as Hp. pose proof (w_group [map seen (a :: a' :: l)] [] _ (Forall_nil _) (wb_one _ _ Hp)) as G. cbn [app] in G. exact G.
  - apply andb_true_iff in H. destruct H as [H1 H2]. assert (H3 : forallb printable l = true). { apply forallb_forall. intros a Ha. rewrite forallb_forall in H2. specialize (H2 a Ha). apply andb_true_iff in H2. apply H2. }
    destruct (shows_all l IH H3) as (ts & E & El & Hs). cbn [show]. fold shows. rewrite E, H1. cbn [bind]. eexists. split; [reflexivity|]. cbn [seen].
    assert (Hl : l <> []) by (destruct l; [discriminate H1|discriminate]). pose proof (w_operator OSubstring (map seen l) [] _ (Forall_nil _) (parts_written l ts Hl Hs)) as G. cbn [app op_text] in G. apply G.
    apply Forall_forall. intros p Hp. apply in_map_iff in Hp. destruct Hp as (a & <- & Ha). apply seen_unrepeated. rewrite forallb_forall in H2. specialize (H2 a Ha). apply andb_true_iff in H2. destruct H2 as [_ H2]. apply negb_true_iff in H2. exact H2.
  - apply andb_true_iff in H. destruct H as [H H4]. apply andb_true_iff in H. destruct H as [H H3]. apply andb_true_iff in H. destruct H as [H1 H2]. apply negb_true_iff in H2. destruct (IH H1) as (x & E & Hw).
    cbn [show]. rewrite E. cbn [bind]. eexists. split; [reflexivity|]. cbn [seen]. exact (w_repeated (seen t) x [] mn mx _ Hw (seen_unrepeated t H2) (Forall_nil _) (bounds_written mn mx H3 H4)).
  - apply andb_true_iff in H. destruct H as [H H3]. apply andb_true_iff in H. destruct H as [H1 H2].
    assert (Hb : Forall (fun c => c < 26) b). { apply Forall_forall. intros c Hc. rewrite forallb_forall in H2. specialize (H2 c Hc). apply Nat.ltb_lt in H2. exact H2. }
    assert (Hb' : Forall (fun c => c < 28) b) by (eapply Forall_impl; [|exact Hb]; cbn; intros; lia).
    cbn [show]. rewrite (show_chars b Hb'). cbn [bind]. rewrite concat_cps. eexists. split; [reflexivity|]. cbn [seen]. rewrite <- (char_cps b Hb') at 1. apply w_block.
    + apply Forall_forall. intros c Hc. apply in_map_iff in Hc. destruct Hc as (x & <- & Hx). rewrite Forall_forall in Hb. apply cp_letter. apply Hb. exact Hx.
    + destruct b; [discriminate H1|discriminate].
    + rewrite map_length. destruct k as [| | |n|n]; [apply wk_plain|apply wk_super|apply wk_sub| |].
      * rewrite <- app_assoc. apply wk_add. apply show_nat_numeral. exact H3.
      * apply andb_true_iff in H3. destruct H3 as [H3 H4]. apply Nat.leb_le in H3. rewrite <- app_assoc. rewrite <- (Nat.min_l n (length b)) at 1 by exact H3. apply wk_delete. apply show_nat_numeral. exact H4.
Qed.

(** ** What is read again *)
Lemma cats_one L w : cats [L] w <-> L w.
Proof. cbn [cats fold_right]. unfold cat, empty_string. split; [intros (x & y & -> & H & ->); rewrite app_nil_r; exact H|]. intros H. exists w, []. rewrite app_nil_r. auto. Qed.
Lemma denotes_one a w : denotes (Sequence [a]) w <-> denotes a w.
Proof. change (denotes (Sequence [a])) with (cats [denotes a]). apply cats_one. Qed.
Definition Reads (a : ast) : Prop := printable a = true ->
  lang_sym (denotes (tree (seen a))) (denotes a) /\ (forall c, mentions c (tree (seen a)) <-> mentions c a) /\ show (tree (seen a)) = show a.
Lemma reads_all l : Forall Reads l -> forallb printable l = true ->
  Forall2 lang_sym (map denotes (map tree (map seen l))) (map denotes l) /\
  (forall c, (exists a, In a (map tree (map seen l)) /\ mentions c a) <-> exists a, In a l /\ mentions c a) /\
  shows (map tree (map seen l)) = shows l.
Proof.
  induction 1 as [|a l Ha _ IH]; cbn [forallb map]; intros H; [split; [constructor|split; [reflexivity|reflexivity]]|]. apply andb_true_iff in H. destruct H as [H1 H2]. destruct (Ha H1) as (A1 & A2 & A3). destruct (IH H2) as (B1 & B2 & B3).
  split; [constructor; assumption|]. split.
  - intros c. split; intros (x & [<-|Hx] & Hm).
    + exists a. split; [left; reflexivity|]. apply A2. exact Hm.
    + destruct (proj1 (B2 c)) as (y & Hy & Hm'); [eauto|]. exists y. split; [right; exact Hy|exact Hm'].
    + exists (tree (seen a)). split; [left; reflexivity|]. apply A2. exact Hm.
    + destruct (proj2 (B2 c)) as (y & Hy & Hm'); [eauto|]. exists y. split; [right; exact Hy|exact Hm'].
  - cbn [shows]. fold shows. rewrite A3, B3. reflexivity.
Qed.
Lemma mentions_one c a : mentions c (Sequence [a]) <-> mentions c a.
Proof. rewrite mentions_sequence. split; [intros (x & [<-|[]] & H); exact H|intros H; exists a; split; [left; reflexivity|exact H]]. Qed.
Lemma show_one a : show (Sequence [a]) = show a.
Proof. cbn [show length]. change (1 <? 1) with false. destruct (show a); cbn [bind concat]; [rewrite app_nil_r|..]; reflexivity. Qed.
Lemma shows_wrapped l : shows (map (fun a => Sequence [a]) l) = shows l.
Proof. induction l as [|a l IH]; [reflexivity|]. cbn [map shows]. fold shows. rewrite IH, show_one. reflexivity. Qed.
Lemma wrapped_sym l : Forall2 lang_sym (map denotes (map (fun a => Sequence [a]) l)) (map denotes l).
Proof. induction l as [|a l IH]; constructor; [intros w; apply denotes_one|exact IH]. Qed.
Lemma sym_trans Ls Ls' Ls'' : Forall2 lang_sym Ls Ls' -> Forall2 lang_sym Ls' Ls'' -> Forall2 lang_sym Ls Ls''.
Proof. intros H. revert Ls''. induction H as [|L L' Ls Ls' H _ IH]; intros Ls'' H'; inversion H'; subst; constructor; [intros w; rewrite (H w); auto|apply IH; assumption]. Qed.
Lemma tree_alts l : 1 < length l -> tree (Group (map (fun a => [seen a]) l)) = Alternatives (map (fun a => Sequence [a]) (map tree (map seen l))).
Proof. intros H. cbn [tree]. destruct l as [|a [|a' l]]; [cbn in H; lia|cbn in H; lia|]. cbn [map branches_ast]. rewrite !map_map. reflexivity. Qed.
Lemma show_repetition x y mn mx : show x = show y -> show (Repetition x mn mx) = show (Repetition y mn mx).
Proof. intros H. cbn [show]. rewrite H. reflexivity. Qed.
Lemma show_alternatives l l' : shows l = shows l' -> show (Alternatives l) = show (Alternatives l').
Proof. intros H. cbn [show]. fold shows. rewrite H. reflexivity. Qed.
Lemma show_sequence l l' : length l = length l' -> shows l = shows l' -> show (Sequence l) = show (Sequence l').
Proof. intros L H. cbn [show]. fold shows. rewrite H, L. reflexivity. Qed.
Lemma show_substring l l' : length l = length l' -> shows l = shows l' -> show (Substring l) = show (Substring l').
Proof. intros L H. cbn [show]. fold shows. rewrite H, L. reflexivity. Qed.
Lemma mentions_substring c l : mentions c (Substring l) <-> exists a, In a l /\ mentions c a.
Proof. split; [intros H; inversion H; subst; eauto|intros (a & Ha & H); econstructor; eassumption]. Qed.
Lemma reads a : Reads a.
Proof.
  induction a as [cs|l IH|l IH|l IH|t mn mx IH|k b] using ast_ind'; unfold Reads; cbn [printable]; intros H.
  - apply andb_true_iff in H. destruct H as [H1 H2]. apply N.ltb_lt in H2. cbn [seen]. rewrite class_read by exact H2. split; [intros w; reflexivity|]. split; reflexivity.
  - apply andb_true_iff in H. destruct H as [H1 H2]. apply Nat.ltb_lt in H1. destruct (reads_all l IH H2) as (A1 & A2 & A3). cbn [seen]. rewrite tree_alts by exact H1. split; [|split].
    + intros w. change (denotes (Alternatives ?l) w) with (exists L, In L (map denotes l) /\ L w). apply alts_sym. eapply sym_trans; [apply wrapped_sym|exact A1].
    + intros c. rewrite !mentions_alternatives, <- A2. split; intros (x & Hx & Hm).
      * apply in_map_iff in Hx. destruct Hx as (y & <- & Hy). exists y. split; [exact Hy|]. apply mentions_one. exact Hm.
      * exists (Sequence [x]). split; [apply in_map_iff; exists x; auto|]. apply mentions_one. exact Hm.
    + apply show_alternatives. rewrite shows_wrapped. exact A3.
  - apply andb_true_iff in H. destruct H as [H1 H2]. destruct (reads_all l IH H2) as (A1 & A2 & A3). destruct l as [|a [|a' l]]; [discriminate H1| |].
    + cbn [seen]. apply Forall_inv in IH. cbn [forallb] in H2. apply andb_true_iff in H2. destruct H2 as [H2 _]. destruct (IH H2) as (B1 & B2 & B3). split; [|split].
      * intros w. rewrite denotes_one. apply B1.
      * intros c. rewrite mentions_one. apply B2.
      * rewrite show_one. exact B3.
    + change (seen (Sequence (a :: a' :: l))) with (Group [map seen (a :: a' :: l)]). change (tree (Group [map seen (a :: a' :: l)])) with (Sequence (map tree (map seen (a :: a' :: l)))).
      remember (a :: a' :: l) as l0 eqn:E0. split; [|split].
      * intros w. change (denotes (Sequence ?l) w) with (cats (map denotes l) w). apply cats_sym. exact A1.
      * intros c. rewrite !mentions_sequence. apply A2.
      * apply show_sequence; [rewrite !map_length; reflexivity|exact A3].
  - apply andb_true_iff in H. destruct H as [H1 H2]. assert (H3 : forallb printable l = true). { apply forallb_forall. intros a Ha. rewrite forallb_forall in H2. specialize (H2 a Ha). apply andb_true_iff in H2. apply H2. }
    destruct (reads_all l IH H3) as (A1 & A2 & A3). cbn [seen tree op_rule operator_ast]. split; [|split].
    + intros w. change (denotes (Substring ?l) w) with (exists pre run post, map denotes l = pre ++ run ++ post /\ cats run w). apply subs_sym. exact A1.
    + intros c. rewrite !mentions_substring. apply A2.
    + apply show_substring; [rewrite !map_length; reflexivity|exact A3].
  - apply andb_true_iff in H. destruct H as [H H4]. apply andb_true_iff in H. destruct H as [H H3]. apply andb_true_iff in H. destruct H as [H1 H2]. destruct (IH H1) as (A1 & A2 & A3). cbn [seen tree]. split; [|split].
    + intros w. cbn [denotes]. split; intros (n & Hn & Hm & Hp); exists n; (split; [exact Hn|]); (split; [exact Hm|]); apply (power_sym _ _ n w A1); exact Hp.
    + intros c. rewrite !mentions_repetition. apply A2.
    + apply show_repetition. exact A3.
  - cbn [seen tree]. split; [intros w; reflexivity|]. split; reflexivity.
Qed.

(** ** Options *)
Definition wishes (o : expr_options) : list request :=
  (match explicit_word_boundaries o with Some true => [WordEnds] | _ => [] end) ++
  (match explicit_punctuation o with Some true => [Punctuation] | _ => [] end) ++
  (match opt_fuzz o with Some n => [Fuzz n] | None => [] end).
Lemma root_written p t o : writes p t -> (forall n, opt_fuzz o = Some n -> fits64 n = true) ->
  writes_expression [[p]] (wishes o) (t ++ (match explicit_word_boundaries o with Some true => str " !_" | _ => [] end)
        ++ (match explicit_punctuation o with Some true => str " !'" | _ => [] end)
        ++ (match opt_fuzz o with Some n => str " !" ++ show_nat n | None => [] end)).
Proof.
  intros Hw Hf. unfold wishes. assert (Sp : spaces (str " ")) by (repeat constructor).
  assert (F : exists sp r, spaces sp /\ match opt_fuzz o with Some n => str " !" ++ show_nat n | None => [] end = sp ++ r /\ writes_requests (match opt_fuzz o with Some n => [Fuzz n] | None => [] end) r).
  { destruct (opt_fuzz o) as [n|]; [|exists [], []; repeat constructor]. exists (str " "), (str "!" ++ show_nat n). split; [exact Sp|]. split; [reflexivity|]. pose proof (wo_fuzz (show_nat n) n [] [] [] (show_nat_numeral n (Hf n eq_refl)) (Forall_nil _) wo_nil) as G. cbn [app] in G. rewrite app_nil_r in G. exact G. }
  destruct F as (sp1 & r1 & S1 & -> & F1).
  assert (F : exists sp r, spaces sp /\ (match explicit_punctuation o with Some true => str " !'" | _ => [] end) ++ sp1 ++ r1 = sp ++ r /\ writes_requests ((match explicit_punctuation o with Some true => [Punctuation] | _ => [] end) ++ match opt_fuzz o with Some n => [Fuzz n] | None => [] end) r).
  { destruct (explicit_punctuation o) as [[|]|]; [|exists sp1, r1; auto|exists sp1, r1; auto]. exists (str " "), (str "!'" ++ sp1 ++ r1). split; [exact Sp|]. split; [reflexivity|]. apply wo_punct; assumption. }
  destruct F as (sp2 & r2 & S2 & -> & F2).
  assert (F : exists sp r, spaces sp /\ (match explicit_word_boundaries o with Some true => str " !_" | _ => [] end) ++ sp2 ++ r2 = sp ++ r /\ writes_requests ((match explicit_word_boundaries o with Some true => [WordEnds] | _ => [] end) ++ (match explicit_punctuation o with Some true => [Punctuation] | _ => [] end) ++ match opt_fuzz o with Some n => [Fuzz n] | None => [] end) r).
  { destruct (explicit_word_boundaries o) as [[|]|]; [|exists sp2, r2; auto|exists sp2, r2; auto]. exists (str " "), (str "!_" ++ sp2 ++ r2). split; [exact Sp|]. split; [reflexivity|]. apply wo_ends; assumption. }
  destruct F as (sp3 & r3 & S3 & -> & F3). replace (t ++ sp3 ++ r3) with ([] ++ (t ++ sp3) ++ r3) by (cbn [app]; rewrite <- app_assoc; reflexivity).
  exact (we_intro [] [[p]] (t ++ sp3) _ r3 (Forall_nil _) (wb_one _ _ (wp_one p t sp3 Hw S3)) F3).
Qed.
Lemma wishes_kept o : explicit_word_boundaries o <> Some false -> explicit_punctuation o <> Some false -> fold_left add_request (wishes o) no_options = o.
Proof.
  destruct o as [b p f]. unfold wishes. cbn [explicit_word_boundaries explicit_punctuation opt_fuzz]. intros Hb Hp.
  destruct b as [[|]|]; [|congruence|]; (destruct p as [[|]|]; [|congruence|]); destruct f; reflexivity.
Qed.
Lemma options_eq o o' : (explicit_word_boundaries o' = Some true <-> explicit_word_boundaries o = Some true) -> (explicit_punctuation o' = Some true <-> explicit_punctuation o = Some true) ->
  opt_fuzz o' = opt_fuzz o -> explicit_word_boundaries o <> Some false -> explicit_punctuation o <> Some false -> explicit_word_boundaries o' <> Some false -> explicit_punctuation o' <> Some false -> o' = o.
Proof.
  destruct o as [b p f], o' as [b' p' f']. cbn [explicit_word_boundaries explicit_punctuation opt_fuzz]. intros Hb Hp -> N1 N2 N3 N4. f_equal.
  - destruct b as [[|]|], b' as [[|]|]; try congruence; [apply Hb; reflexivity|symmetry; apply Hb; reflexivity].
  - destruct p as [[|]|], p' as [[|]|]; try congruence; [apply Hp; reflexivity|symmetry; apply Hp; reflexivity].
Qed.

Definition never_off (o : expr_options) : Prop := explicit_word_boundaries o <> Some false /\ explicit_punctuation o <> Some false.
Lemma note_never_off f o : never_off o -> never_off (note_symbols f o).
Proof. intros [H1 H2]. unfold note_symbols, never_off. unfold set_boundaries, set_punctuation. destruct (f WORD_END), (f PUNCTUATION); cbn [explicit_word_boundaries explicit_punctuation]; split; congruence. Qed.
Lemma detect_never_off : forall a o, never_off o -> never_off (detect_options a o).
Proof.
  assert (Hl : forall l, Forall (fun a => forall o, never_off o -> never_off (detect_options a o)) l -> forall o, never_off o -> never_off (each_option l o)).
  { induction 1 as [|a l Ha _ IH]; intros o Ho; cbn [each_option]; fold each_option; [exact Ho|]. apply IH. apply Ha. exact Ho. }
  induction a as [cs|l IH|l IH|l IH|t mn mx IH|k b] using ast_ind'; intros o Ho; cbn [detect_options]; fold each_option; auto using note_never_off.
Qed.

(** ** Printing and parsing again *)
Lemma round_trip e : printable (root e) = true -> options_noted e ->
  exists t e', show_expr e = Ok t /\ parse_expr_text t = Ok (Parsed e') /\
  (forall w, denotes (root e') w <-> denotes (root e) w) /\ options e' = options e /\ show_expr e' = Ok t.
Proof.
  intros Hp (Hw & Hu & N1 & N2 & Hf). destruct e as [a o]. cbn [root options] in *. destruct (shown a Hp) as (t & E & Hwr). destruct (reads a Hp) as (R1 & R2 & R3).
  unfold show_expr at 1. cbn [root options]. rewrite E. cbn [bind]. do 2 eexists. split; [reflexivity|].
  split; [apply (expression_text [[seen a]] (wishes o)); apply root_written; assumption|].
  assert (Ho : options (written_expr [[seen a]] (wishes o)) = o).
  { unfold written_expr. cbn [options]. rewrite wishes_kept by assumption. change (tree (Group [[seen a]])) with (Sequence [tree (seen a)]). destruct (detect_spec (Sequence [tree (seen a)]) o) as (D1 & D2 & D3). rewrite mentions_one, R2 in D1, D2.
    destruct (detect_never_off (Sequence [tree (seen a)]) o (conj N1 N2)) as [M1 M2]. apply options_eq; try assumption.
    - rewrite D1. split; [intros [H|H]; auto|auto].
    - rewrite D2. split; [intros [H|H]; auto|auto]. }
  split; [|split].
  - intros w. unfold written_expr. cbn [root]. change (tree (Group [[seen a]])) with (Sequence [tree (seen a)]). rewrite denotes_one. apply R1.
  - exact Ho.
  - unfold show_expr. rewrite Ho. unfold written_expr. cbn [root]. change (tree (Group [[seen a]])) with (Sequence [tree (seen a)]). rewrite show_one, R3, E. reflexivity.
Qed.

(** ** After parsing *)
Lemma usize_from_small t : forall acc v, (acc < 2 ^ 64)%N -> parse_usize_from t acc = Some v -> (v < 2 ^ 64)%N.
Proof.
  induction t as [|c t IH]; intros acc v Ha H; cbn [parse_usize_from] in H; [congruence|]. destruct (is_digit c); [|discriminate H]. destruct (N.ltb_spec (acc * 10 + (c - 48)) (2 ^ 64)) as [Hl|]; [|discriminate H]. exact (IH _ _ Hl H).
Qed.
Lemma usize_small t v : parse_usize t = Some v -> fits64 v = true.
Proof.
  unfold parse_usize. intros H. assert (G : option_map N.to_nat (parse_usize_from t 0) = Some v) by (destruct t; [discriminate H|exact H]). destruct (parse_usize_from t 0) as [x|] eqn:E; [|discriminate G]. cbn [option_map] in G. injection G as <-.
  unfold fits64. rewrite N2Nat.id. apply N.ltb_lt. exact (usize_from_small t 0 x eq_refl E).
Qed.
Lemma numbers_small l v : In v (parse_numbers l) -> fits64 v = true.
Proof.
  unfold parse_numbers. rewrite in_flat_map. intros (n & _ & H). destruct (is_rule number n); [|destruct H]. destruct (parse_usize (node_text n)) as [x|] eqn:E; [|destruct H]. destruct H as [<-|[]]. exact (usize_small _ _ E).
Qed.
Definition fair (o : expr_options) : Prop := never_off o /\ forall n, opt_fuzz o = Some n -> fits64 n = true.
Lemma parse_option_fair o n o' : fair o -> parse_option o n = Ok o' -> fair o'.
Proof.
  intros [[H1 H2] H3] E. unfold parse_option in E. destruct (node_rule n); try discriminate E.
  - injection E as <-. split; [split; cbn; congruence|exact H3].
  - injection E as <-. split; [split; cbn; congruence|exact H3].
  - apply bind_Ok in E. destruct E as (v & E & E'). injection E' as <-. split; [split; cbn; congruence|]. cbn [opt_fuzz]. intros m [= <-]. apply (numbers_small (node_inner n)). apply index_Ok in E. eapply nth_error_In. exact E.
  - injection E as <-. exact (conj (conj H1 H2) H3).
Qed.
Lemma parse_options_fair l : forall o o', fair o -> foldM parse_option l o = Ok o' -> fair o'.
Proof.
  induction l as [|n l IH]; intros o o' Ho E; cbn [foldM] in E; [injection E as <-; exact Ho|]. apply bind_Ok in E. destruct E as (o1 & E1 & E). exact (IH o1 o' (parse_option_fair o n o1 Ho E1) E).
Qed.
Lemma parsed_noted n e : parse_expression n = Ok e -> options_noted e.
Proof.
  unfold parse_expression. destruct (is_rule r_expression n); [|discriminate]. destruct (node_inner n) as [|sub rest]; [discriminate|]. destruct (_ || _); [|discriminate]. intros E. apply bind_Ok in E. destruct E as (a & Ea & E). destruct a as [a|]; [|discriminate E].
  apply bind_Ok in E. destruct E as (o & Eo & E). injection E as <-. unfold options_noted. cbn [root options]. destruct (parse_options_fair rest no_options o) as [Hn Hf]; [split; [split; discriminate|discriminate]|exact Eo|].
  destruct (detect_spec a o) as (D1 & D2 & D3). destruct (detect_never_off a o Hn) as [N1 N2]. split; [intros H; apply D1; auto|]. split; [intros H; apply D2; auto|]. split; [exact N1|]. split; [exact N2|]. rewrite D3. exact Hf.
Qed.
Lemma text_noted t e : parse_expr_text t = Ok (Parsed e) -> options_noted e.
Proof.
  unfold parse_expr_text. destruct (parse_rule r_expression t) as [| |rest ns]; try discriminate. destruct ns as [|n ns]; [discriminate|]. intros E. apply bind_Ok in E. destruct E as (e' & E & G). injection G as <-. exact (parsed_noted n e' E).
Qed.
Lemma parsed_round_trip s e : parse_expr_text s = Ok (Parsed e) -> printable (root e) = true ->
  exists t e', show_expr e = Ok t /\ parse_expr_text t = Ok (Parsed e') /\
  (forall w, denotes (root e') w <-> denotes (root e) w) /\ options e' = options e /\ show_expr e' = Ok t.
Proof. intros H Hp. apply round_trip; [exact Hp|]. exact (text_noted s e H). Qed.

(** ** Written patterns *)
Lemma bits_small cs : (forall i, mem cs i = true -> i < 28) -> (cs < 2 ^ 28)%N.
Proof.
  intros H. destruct (N.eq_dec cs 0) as [->|Hz]; [reflexivity|]. apply N.log2_lt_pow2; [lia|]. specialize (H (N.to_nat (N.log2 cs))). unfold mem in H. rewrite N2Nat.id in H. specialize (H (N.bit_log2 cs Hz)). lia.
Qed.
Lemma char_small c : char_of c < 28.
Proof. exact (char_of_bound c). Qed.
Lemma covers_small items s : covers items s -> s < 28.
Proof. intros (i & _ & H). destruct i as [c|lo hi]; cbn [item_covers] in H; [subst s; apply char_small|]. destruct H as (c & _ & ->). apply char_small. Qed.
Lemma class_small neg items i : mem (class_charset neg (map item_of items)) i = true -> i < 28.
Proof.
  rewrite <- cs_contains_mem. destruct neg; [rewrite class_inverted|rewrite class_plain]; rewrite lists_covers; [intros [[H _]|[_ H]]; [lia|]|intros H]; exact (covers_small _ _ H).
Qed.
Lemma reprints_parts ps : (fix all (ps : list pat) : Prop := match ps with [] => True | p :: ps' => reprints p /\ all ps' end) ps -> Forall reprints ps.
Proof. induction ps as [|p ps IH]; intros H; constructor; [apply H|apply IH; apply H]. Qed.
Lemma reprints_group bs : reprints (Group bs) -> Forall (Forall reprints) bs.
Proof. cbn [reprints]. induction bs as [|b bs IH]; intros H; constructor; [apply reprints_parts; apply H|apply IH; apply H]. Qed.
Lemma reprints_operator o ts : reprints (Operator o ts) -> (o = OSubstring -> 2 <= length ts) /\ Forall (fun p => reprints p /\ (o <> OSuperset -> repeats p = false)) ts.
Proof.
  cbn [reprints]. intros [H1 H2]. split; [intros ->; exact H1|]. clear H1. induction ts as [|p ts IH]; constructor; [|apply IH; apply H2]. destruct H2 as [[H2 H3] _]. split; [exact H2|]. intros Ho. destruct o; congruence.
Qed.
Definition Tidy (p : pat) : Prop := ends_repeated (tree p) = repeats p /\ (reprints p -> printable (tree p) = true).
Lemma tidy_parts ps : Forall Tidy ps -> Forall reprints ps -> forallb printable (map tree ps) = true.
Proof. induction 1 as [|p ps [_ H] _ IH]; intros G; [reflexivity|]. inversion G; subst. cbn [map forallb]. rewrite H, IH by assumption. reflexivity. Qed.
Lemma tidy_branches bs : Forall (fun b => b <> [] /\ Forall Tidy b) bs -> Forall (Forall reprints) bs -> forallb printable (map Sequence (map (map tree) bs)) = true.
Proof.
  induction 1 as [|b bs [Hn H] _ IH]; intros G; [reflexivity|]. inversion G; subst. cbn [map forallb printable]. rewrite (tidy_parts b H) by assumption. rewrite IH by assumption. rewrite !andb_true_r. rewrite map_length. destruct b; [congruence|reflexivity].
Qed.
Lemma numeral_fits d n : numeral d n -> fits64 n = true.
Proof. intros (_ & _ & H & ->). unfold fits64. rewrite N2Nat.id. apply N.ltb_lt. exact H. Qed.
Lemma class_tidy neg items : Tidy (Class neg items).
Proof.
  split; [reflexivity|]. cbn [reprints tree printable]. intros H. apply andb_true_iff. split; [|apply N.ltb_lt; apply bits_small; intros i; apply class_small].
  apply negb_true_iff, N.eqb_neq. intros E.
  assert (G : exists s, cs_contains (class_charset neg (map item_of items)) s = true).
  { destruct neg; cbn [means] in H; destruct H as (w & s & _ & H); exists s; [apply class_inverted; left; rewrite lists_covers; exact H|apply class_plain; apply lists_covers; exact H]. }
  destruct G as (s & G). rewrite E, cs_contains_mem, mem_0 in G. discriminate G.
Qed.
Lemma tidy : (forall p t, writes p t -> Tidy p) /\ (forall ps t, writes_parts ps t -> ps <> [] /\ Forall Tidy ps) /\ (forall bs t, writes_branches bs t -> bs <> [] /\ Forall (fun b => b <> [] /\ Forall Tidy b) bs).
Proof.
  apply writes_all.
  - intros c _. split; [reflexivity|]. intros _. cbn [tree printable]. apply andb_true_iff. split.
    + apply negb_true_iff, N.eqb_neq. intros E. assert (G : mem (charset_of (char_of c)) (char_of c) = true) by (rewrite charset_of_mem; apply Nat.eqb_refl). rewrite E, mem_0 in G. discriminate G.
    + apply N.ltb_lt, bits_small. intros i. rewrite charset_of_mem. intros G. apply Nat.eqb_eq in G. pose proof (char_small c). lia.
  - split; reflexivity.
  - intros d n Hd. split; [reflexivity|]. intros _. cbn [tree printable ends_repeated forallb length]. rewrite (numeral_fits d n Hd). reflexivity.
  - intros items ts _ _. apply class_tidy.
  - intros items ts _ _ _. apply class_tidy.
  - intros k b t Hb Hn Hk. split; [reflexivity|]. intros _. cbn [tree printable]. rewrite map_length. apply andb_true_iff. split; [apply andb_true_iff; split|].
    + destruct b; [congruence|reflexivity].
    + apply forallb_forall. intros c Hc. apply in_map_iff in Hc. destruct Hc as (x & <- & Hx). rewrite Forall_forall in Hb. apply Nat.ltb_lt. apply ascii_char. apply Hb. exact Hx.
    + destruct Hk as [len|len|len|len d n Hd|len d n Hd]; try reflexivity; [exact (numeral_fits d n Hd)|]. apply andb_true_iff. split; [apply Nat.leb_le; lia|]. pose proof (numeral_fits d n Hd) as G. unfold fits64 in *. rewrite N.ltb_lt in *. lia.
  - intros bs sp t _ _ [Hn H]. split.
    + destruct bs as [|b [|b' bs]]; [congruence| |destruct b as [|? [|? ?]]; reflexivity]. inversion H as [|? ? [Hb Ht] _]; subst. destruct b as [|p [|p' b]]; [congruence| |reflexivity]. inversion Ht as [|? ? [G _] _]; subst. exact G.
    + intros G. apply reprints_group in G. cbn [tree]. destruct bs as [|b [|b' bs]]; [congruence| |].
      * inversion H as [|? ? [Hb Ht] _]; subst. inversion G; subst. cbn [map branches_ast printable]. rewrite (tidy_parts b) by assumption. rewrite map_length. destruct b; [congruence|reflexivity].
      * pose proof (tidy_branches _ H G) as K. cbn [map branches_ast printable length]. exact K.
  - intros o ps sp t _ _ [Hn H] Hu. split.
    + destruct o; cbn [tree op_rule operator_ast]; try reflexivity.
      * destruct ps as [|p [|p' ps]]; [congruence|reflexivity|reflexivity].
      * destruct ps as [|p ps]; [congruence|]. reflexivity.
    + intros G. apply reprints_operator in G. destruct G as [G1 G2]. assert (Gr : Forall reprints ps) by (eapply Forall_impl; [|exact G2]; intros p [K _]; exact K). destruct o; cbn [tree op_rule operator_ast printable].
      * rewrite map_length. apply andb_true_iff. split; [apply Nat.ltb_lt; apply G1; reflexivity|]. clear Gr G1 Hn Hu. induction H as [|p ps [H1 H2] _ IH]; [reflexivity|]. inversion G2 as [|? ? [K1 K2] G3]; subst. cbn [map forallb]. rewrite (H2 K1), H1, (K2 ltac:(discriminate)), (IH G3). reflexivity.
      * rewrite !map_length. apply andb_true_iff. split; [destruct ps; [congruence|reflexivity]|]. clear Gr G1 Hn Hu. induction H as [|p ps [H1 H2] _ IH]; [reflexivity|]. inversion G2 as [|? ? [K1 K2] G3]; subst. cbn [map forallb printable]. rewrite (H2 K1), H1, (K2 ltac:(discriminate)), (IH G3). reflexivity.
      * apply andb_true_iff. split; [apply Nat.ltb_lt; rewrite app_length; cbn [length]; lia|]. rewrite forallb_app. apply andb_true_iff. split; [|reflexivity]. clear G2 G1 Hn Hu. induction H as [|p ps [H1 H2] _ IH]; [reflexivity|]. inversion Gr; subst. cbn [map flat_map app forallb]. rewrite H2, IH by assumption. reflexivity.
  - intros p t sp l m t' _ [H1 H2] _ _ Hb. split; [reflexivity|]. cbn [reprints tree printable]. intros [K1 K2]. rewrite (H2 K1), H1, K2. cbn [negb andb].
    destruct Hb as [| | |d n Hd|d n Hd|d n Hd|d n d' n' Hd Hd']; try reflexivity; try rewrite (numeral_fits d n Hd); try rewrite (numeral_fits d' n' Hd'); reflexivity.
  - intros p t sp _ H _. split; [discriminate|]. constructor; [exact H|constructor].
  - intros p t sp ps t' _ H _ _ _ [_ Hs]. split; [discriminate|]. constructor; assumption.
  - intros ps t _ H. split; [discriminate|]. constructor; [exact H|constructor].
  - intros ps t sp bs t' _ H _ _ [_ Hb]. split; [discriminate|]. constructor; assumption.
Qed.
Lemma written_round_trip bs rs s : writes_expression bs rs s -> reprints (Group bs) ->
  exists e t e', parse_expr_text s = Ok (Parsed e) /\ show_expr e = Ok t /\ parse_expr_text t = Ok (Parsed e') /\
  (forall w, denotes (root e') w <-> means (Group bs) w) /\ options_asked bs rs (options e') /\ show_expr e' = Ok t.
Proof.
  intros H Hr. pose proof (expression_text bs rs s H) as E. assert (Hb : exists t, writes_branches bs t) by (destruct H; eauto). destruct Hb as (t0 & Hb).
  assert (Hp : printable (root (written_expr bs rs)) = true).
  { unfold written_expr. cbn [root]. destruct tidy as (T & _ & _). apply (T (Group bs) (str "(" ++ [] ++ t0 ++ str ")")); [apply w_group; [constructor|exact Hb]|exact Hr]. }
  destruct (parsed_round_trip s _ E Hp) as (t & e' & S & P & L & O & S'). exists (written_expr bs rs), t, e'. split; [exact E|]. split; [exact S|]. split; [exact P|]. split; [|split; [|exact S']].
  - intros w. rewrite (L w). exact (written_denotes bs t0 w Hb).
  - rewrite O. exact (written_options bs rs t0 Hb).
Qed.

(** ** Printing never fails *)
Lemma term_banks k : forall n a, nsize n <= k -> parse_term n = Ok (Some a) -> banks_ok a = true.
Proof.
  induction k as [|k IH]; intros [r t inner] a Hk E; [cbn [nsize] in Hk; lia|].
  assert (Ht : forall l as_, (forall x, In x l -> In x inner) -> parse_terms l = Ok as_ -> forallb banks_ok as_ = true).
  { induction l as [|x l IHl]; intros as_ Hl El; cbn [parse_terms] in El; fold parse_terms in El; [injection El as <-; reflexivity|].
    apply bind_Ok in El. destruct El as (b & Eb & El). apply bind_Ok in El. destruct El as (rest & Er & El). injection El as <-. specialize (IHl rest (fun y Hy => Hl y (or_intror Hy)) Er).
    destruct b as [b|]; [|exact IHl]. cbn [forallb]. rewrite (IH x b), IHl; [reflexivity| |exact Eb]. pose proof (nsize_in x inner r t (Hl x (or_introl eq_refl))). lia. }
  assert (Hr : forall (f : list nat -> outcome (nat * option nat)), match inner with
    | [] => Panic
    | x :: l' => do a <- parse_term x; match a with None => Panic | Some a => do (mn, mx) <- f (parse_numbers l'); Ok (Some (Repetition a mn mx)) end
    end = Ok (Some a) -> banks_ok a = true).
  { intros f Ef. destruct inner as [|x inner]; [discriminate Ef|]. apply bind_Ok in Ef. destruct Ef as (b & Eb & Ef). destruct b as [b|]; [|discriminate Ef]. apply bind_Ok in Ef. destruct Ef as ([mn mx] & _ & Ef). injection Ef as <-. cbn [banks_ok].
    apply (IH x b); [|exact Eb]. pose proof (nsize_in x (x :: inner) r t (or_introl eq_refl)). lia. }
  assert (Ha : forall bank num, parse_anagram inner = Ok (bank, num) -> forallb (fun c => c <? CHAR_MAX) bank = true).
  { intros bank num Ea. unfold parse_anagram in Ea. destruct inner as [|b l]; [discriminate Ea|]. destruct (is_rule anagram_body b); [|discriminate Ea]. injection Ea as <- _. apply bank_symbols. }
  assert (Hb : forall kd, (do (bank, num) <- parse_anagram inner; match num with None => Ok (Some (Anagram kd bank)) | Some _ => Panic end) = Ok (Some a) -> banks_ok a = true).
  { intros kd Ea. apply bind_Ok in Ea. destruct Ea as ([bank num] & Ea & Eb). destruct num; [discriminate Eb|]. injection Eb as <-. exact (Ha bank _ Ea). }
  specialize (Ht inner). destruct r; cbn [parse_term] in E; fold parse_terms in E; try discriminate E.
  all: try (exact (Hr (fun _ => Ok (0, Some 1)) E)); try (exact (Hr (fun _ => Ok (0, None)) E)); try (exact (Hr (fun _ => Ok (1, None)) E)).
  all: try (exact (Hr (fun ns => do v <- index ns 0; Ok (v, Some v)) E)); try (exact (Hr (fun ns => do v <- index ns 0; Ok (0, Some v)) E)); try (exact (Hr (fun ns => do v <- index ns 0; Ok (v, None)) E)); try (exact (Hr (fun ns => do v <- index ns 0; do v' <- index ns 1; Ok (v, Some v')) E)).
  all: try (exact (Hb _ E)).
  all: try (apply bind_Ok in E; destruct E as (x & Ex & E); injection E as <-; cbn [banks_ok]; try reflexivity; exact (Ht x (fun _ H => H) Ex)).
  all: try (injection E as <-; reflexivity).
  all: try (destruct (parse_usize t); [injection E as <-; reflexivity|discriminate E]).
  all: try (apply bind_Ok in E; destruct E as ([bank num] & Ea & E); (destruct num; [injection E as <-; exact (Ha bank _ Ea)|discriminate E])).
  all: try (apply bind_Ok in E; destruct E as (x & Ex & E); injection E as <-; specialize (Ht x (fun _ H => H) Ex); cbn [banks_ok]; clear - Ht).
  - induction x as [|a l IHl]; [reflexivity|]. cbn [map forallb banks_ok] in *. apply andb_true_iff in Ht. rewrite (proj1 Ht), (IHl (proj2 Ht)). reflexivity.
  - rewrite forallb_app. cbn [forallb banks_ok any_many]. rewrite andb_true_r. induction x as [|a l IHl]; [reflexivity|]. cbn [flat_map app forallb banks_ok any_many andb] in *. apply andb_true_iff in Ht. rewrite (proj1 Ht), (IHl (proj2 Ht)). reflexivity.
Qed.
Lemma charset_shows cs : exists t, show_charset cs = Ok t.
Proof.
  unfold show_charset. destruct (N.eqb cs LETTERS); [eauto|]. destruct (N.eqb cs ALL); [eauto|]. cbv zeta. destruct (_ =? 0); [eauto|]. change CHAR_MAX with 28. rewrite <- listed_def. rewrite show_chars by apply listed_small. cbn [bind]. eauto.
Qed.
Lemma banks_show : forall a, banks_ok a = true -> exists t, show a = Ok t.
Proof.
  assert (Hl : forall l, Forall (fun a => banks_ok a = true -> exists t, show a = Ok t) l -> forallb banks_ok l = true -> exists ts, shows l = Ok ts).
  { induction 1 as [|a l Ha _ IH]; cbn [forallb]; intros H; [eexists; reflexivity|]. apply andb_true_iff in H. destruct H as [H1 H2]. destruct (Ha H1) as (t & E). destruct (IH H2) as (ts & Es). exists (t :: ts). cbn [shows]. fold shows. rewrite E. cbn [bind]. rewrite Es. reflexivity. }
  induction a as [cs|l IH|l IH|l IH|t mn mx IH|k b] using ast_ind'; cbn [banks_ok]; intros H.
  - apply charset_shows.
  - destruct (Hl l IH H) as (ts & E). cbn [show]. fold shows. rewrite E. cbn [bind]. destruct ts; eauto.
  - destruct (Hl l IH H) as (ts & E). cbn [show]. fold shows. rewrite E. cbn [bind]. eauto.
  - destruct (Hl l IH H) as (ts & E). cbn [show]. fold shows. rewrite E. cbn [bind]. eauto.
  - destruct (IH H) as (x & E). cbn [show]. rewrite E. cbn [bind]. eauto.
  - cbn [show]. rewrite show_chars; [cbn [bind]; eauto|]. apply Forall_forall. intros c Hc. rewrite forallb_forall in H. specialize (H c Hc). apply Nat.ltb_lt in H. exact H.
Qed.
Lemma parsed_shows t e : parse_expr_text t = Ok (Parsed e) -> exists s, show_expr e = Ok s.
Proof.
  unfold parse_expr_text. destruct (parse_rule r_expression t) as [| |rest ns]; try discriminate. destruct ns as [|n ns]; [discriminate|]. intros E. apply bind_Ok in E. destruct E as (e' & E & G). injection G as <-.
  unfold parse_expression in E. destruct (is_rule r_expression n); [|discriminate E]. destruct (node_inner n) as [|sub rest']; [discriminate E|]. destruct (_ || _); [|discriminate E]. apply bind_Ok in E. destruct E as (a & Ea & E). destruct a as [a|]; [|discriminate E].
  apply bind_Ok in E. destruct E as (o & _ & E). injection E as <-. destruct (banks_show a (term_banks (nsize sub) sub a (le_n _) Ea)) as (x & Ex). unfold show_expr. cbn [root]. rewrite Ex. cbn [bind]. eauto.
Qed.
