(** Written patterns are parsed as what they are: terms. *)
From Coq Require Import String.
From Verif Require Export AnagramProofs WordsProofs Syntax.
Local Open Scope list_scope.

Lemma alpha_letter c : alpha c <-> ascii_letter c.
Proof. unfold alpha, ascii_letter, in_range. rewrite !andb_true_iff, !N.leb_le. lia. Qed.

(** ** Skipping *)
Definition solid (c : N) : Prop := c <> 32%N /\ c <> 47%N /\ c <> 45%N.
Lemma skip_solid c t : solid c -> skip_text (c :: t) = c :: t.
Proof.
  intros (H1 & H2 & H3). unfold skip_text. cbn [drop_spaces]. destruct (N.eqb_spec c 32) as [E|_]; [contradiction|]. cbv zeta. unfold comment_at. destruct t as [|b [|d t]]; try reflexivity.
  destruct (N.eqb_spec c 47); [contradiction|]. destruct (N.eqb_spec c 45); [contradiction|]. reflexivity.
Qed.
Lemma skip_spaces sp t : spaces sp -> skip_text (sp ++ t) = skip_text t.
Proof. intros H. unfold skip_text. induction H as [|c sp -> _ IH]; [reflexivity|]. exact IH. Qed.
Lemma skip_dash c t : c <> 45%N -> skip_text (45%N :: c :: t) = 45%N :: c :: t.
Proof. intros H. unfold skip_text. cbn [drop_spaces]. change (45 =? 32)%N with false. cbv iota zeta. unfold comment_at. destruct t as [|d t]; [reflexivity|]. change (45 =? 47)%N with false. change (45 =? 45)%N with true. cbn [andb orb]. destruct (N.eqb_spec c 45); [contradiction|]. reflexivity. Qed.
(** first code points of patterns *)
Definition starter (c : N) : Prop := ascii_letter c \/ is_digit c = true \/ c = 39%N \/ c = 95%N \/ c = 46%N \/ c = 91%N \/ c = 40%N \/ c = 60%N.
Lemma digit_range c : is_digit c = true <-> (48 <= c <= 57)%N.
Proof. unfold is_digit, in_range. rewrite andb_true_iff, !N.leb_le. reflexivity. Qed.
Lemma not_digit c : (c < 48 \/ 57 < c)%N -> is_digit c = false.
Proof. intros H. apply in_range_false. exact H. Qed.
Lemma starter_solid c : starter c -> solid c.
Proof. unfold starter, solid, ascii_letter. rewrite digit_range. lia. Qed.
Definition starts (t : text) : Prop := exists c t', t = c :: t' /\ starter c.
Lemma skip_starts t r : starts t -> skip_text (t ++ r) = t ++ r.
Proof. intros (c & t' & -> & H). cbn [app]. apply skip_solid, starter_solid, H. Qed.

(** ** Choice of a rule by the first code point *)
Fixpoint firsts (w : nat) (t : text) (l : list rule) : presult :=
  match l with [] => PFail | r :: l' => match prun w false (PRule r) t with PFail => firsts w t l' | x => x end end.
Definition term_rules : list rule :=
  [class; dot; group; anagram; superanagram; subanagram; transadd; transdelete; substring; r_subset; r_superset; number; character].
Lemma silent_rule w r t : silent r = true -> atomic r = false -> prun w false (PRule r) t = prun w false (body r) t.
Proof. intros H1 H2. rewrite run_rule, H1, H2. cbn [orb]. destruct (prun w false (body r) t); reflexivity. Qed.
Lemma run_term w t : prun w false (PRule term) t = firsts w t term_rules.
Proof.
  rewrite silent_rule by reflexivity. cbn [body choice]. do 12 (rewrite run_alt by reflexivity). unfold term_rules. cbn [firsts].
  repeat (match goal with |- match ?x with _ => _ end = _ => destruct x; try reflexivity end). destruct (prun w false (PRule character) t); reflexivity.
Qed.
Definition opener (r : rule) : option N :=
  match r with
  | class => Some 91 | dot => Some 46 | group | substring | r_subset | r_superset => Some 40
  | anagram | superanagram | subanagram | transadd | transdelete => Some 60 | _ => None
  end%N.
Lemma opener_fails w r x c t : opener r = Some x -> c <> x -> prun w false (PRule r) (c :: t) = PFail.
Proof.
  intros H Hc. assert (G : forall s b, body r = PSeq (PStr (x :: s)) b \/ body r = PStr (x :: s) -> prun w false (PRule r) (c :: t) = PFail).
  { intros s b Hb. apply (rule_head w false r x s b); [exact Hb|exact Hc]. }
  destruct r; try discriminate H; injection H as <-; try (eapply G; left; reflexivity). eapply G with (b := PAny). right. reflexivity.
Qed.
Lemma firsts_open w c t l r : (forall r', In r' l -> exists x, opener r' = Some x /\ x <> c) -> firsts w (c :: t) (l ++ r) = firsts w (c :: t) r.
Proof.
  induction l as [|r' l IH]; intros H; [reflexivity|]. cbn [app firsts]. destruct (H r' (or_introl eq_refl)) as (x & Hx & Hc). rewrite (opener_fails w r' x c t Hx) by congruence. apply IH. intros r'' Hr. apply H. right. exact Hr.
Qed.
Lemma firsts_hit w t r l rest ns : prun w false (PRule r) t = PMatch rest ns -> firsts w t (r :: l) = PMatch rest ns.
Proof. intros H. cbn [firsts]. rewrite H. reflexivity. Qed.
Lemma firsts_miss w t r l : prun w false (PRule r) t = PFail -> firsts w t (r :: l) = firsts w t l.
Proof. intros H. cbn [firsts]. rewrite H. reflexivity. Qed.
(** a rule whose node is delivered *)
Lemma loud_rule w r t rest ns : silent r = false -> prun w (atomic r) (body r) t = PMatch rest ns -> prun w false (PRule r) t = PMatch rest [Node r (consumed t rest) ns].
Proof. intros H1 H2. rewrite run_rule, H1. cbn [orb]. rewrite H2. reflexivity. Qed.
Lemma more_rep w a t t1 n1 : fine (PRep a) = true -> prun w false a (skip_text t) = PMatch t1 n1 -> prun w false (PMore a) t = prun w false (PRep a) (skip_text t).
Proof. intros F H. rewrite more_eq by exact F. rewrite run_rep by exact F. cbn [skipped]. rewrite H. reflexivity. Qed.

(** ** Simple terms *)
Lemma is_symbol_char w c t : c = 39%N \/ c = 95%N -> prun w false (PRule character) (c :: t) = PMatch t [Node character [c] []].
Proof.
  intros H. rewrite <- (consumed_one c t). apply loud_rule; [reflexivity|]. cbn [atomic body choice]. do 3 (rewrite run_alt by reflexivity). unfold ASCII_ALPHA. rewrite run_alt by reflexivity. rewrite !run_range.
  rewrite (silent_rule w punctuation), (silent_rule w whitespace) by reflexivity. cbn [body]. unfold tok. rewrite !run_str.
  rewrite (rule_head w false dot 46 [] PAny (c :: t)) by (try (right; reflexivity); cbn [head_not]; destruct H as [-> | ->]; discriminate).
  destruct H as [-> | ->]; reflexivity.
Qed.
Lemma symbol_char w c t : ascii_letter c \/ c = 39%N \/ c = 95%N -> prun w false (PRule character) (c :: t) = PMatch t [Node character [c] []].
Proof. intros [H|H]; [apply run_character, alpha_letter, H|apply is_symbol_char, H]. Qed.
Lemma not_number_at w c t : is_digit c = false -> prun w false (PRule number) (c :: t) = PFail.
Proof. intros H. apply not_number. exact H. Qed.
Lemma symbol_term w c t : ascii_letter c \/ c = 39%N \/ c = 95%N -> prun w false (PRule term) (c :: t) = PMatch t [Node character [c] []].
Proof.
  intros H. rewrite run_term. change term_rules with ([class; dot; group; anagram; superanagram; subanagram; transadd; transdelete; substring; r_subset; r_superset] ++ [number; character]).
  rewrite firsts_open.
  - rewrite firsts_miss by (apply not_number_at, not_digit; unfold ascii_letter in H; lia). apply firsts_hit, symbol_char, H.
  - unfold ascii_letter in H. intros r' Hr. cbn [In] in Hr. repeat (destruct Hr as [<-|Hr]; [cbn [opener]; eexists; split; [reflexivity|lia]|]). destruct Hr.
Qed.
Lemma dot_term w t : prun w false (PRule term) (46%N :: t) = PMatch t [Node dot [46%N] []].
Proof.
  rewrite run_term. unfold term_rules. rewrite firsts_miss by (apply (opener_fails w class 91%N); [reflexivity|discriminate]). apply firsts_hit. rewrite <- (consumed_one 46%N t). apply loud_rule; reflexivity.
Qed.
Definition no_digit (t : text) : Prop := match t with c :: _ => is_digit c = false | [] => True end.
Lemma run_numeral w d t : digits d -> d <> [] -> no_digit t -> prun w false (PRule number) (d ++ t) = PMatch t [Node number d []].
Proof. intros H Hn Ht. rewrite run_number, (take_before d t H Ht). cbn [fst snd]. destruct d; [congruence|reflexivity]. Qed.
Lemma number_term w d t : digits d -> d <> [] -> no_digit t -> prun w false (PRule term) (d ++ t) = PMatch t [Node number d []].
Proof.
  intros H Hn Ht. rewrite run_term. change term_rules with ([class; dot; group; anagram; superanagram; subanagram; transadd; transdelete; substring; r_subset; r_superset] ++ [number; character]).
  pose proof (firsts_hit w (d ++ t) number [character] t [Node number d []] (run_numeral w d t H Hn Ht)) as G.
  destruct (digits_head d t H Hn) as (c & t' & E & Hc). rewrite E in *. rewrite firsts_open; [exact G|].
  intros r' Hr. cbn [In] in Hr. repeat (destruct Hr as [<-|Hr]; [cbn [opener]; eexists; split; [reflexivity|lia]|]). destruct Hr.
Qed.
Lemma numeral_value d n : numeral d n -> parse_usize d = Some n.
Proof. intros (H1 & H2 & H3 & ->). rewrite parse_usize_decimal by assumption. apply N.ltb_lt in H3. rewrite H3. reflexivity. Qed.

(** ** Classes *)
Definition item_of (i : item) : class_item := match i with Single c => ItemChar c | Range a b => ItemRange a b end.
Definition item_part : pexp := PAlt (PRule letter_range) (PRule character).
Lemma alpha_fails w c t : ~ ascii_letter c -> prun w false ASCII_ALPHA (c :: t) = PFail.
Proof.
  intros H. unfold ASCII_ALPHA. rewrite run_alt by reflexivity. rewrite !run_range. unfold ascii_letter in H.
  rewrite !in_range_false by lia. reflexivity.
Qed.
Lemma alpha_runs w c t : ascii_letter c -> prun w false ASCII_ALPHA (c :: t) = PMatch t [].
Proof. intros H. apply run_alpha, alpha_letter, H. Qed.
Lemma item_runs w i t c rest : writes_item i t -> solid c ->
  exists n, prun w false item_part (t ++ c :: rest) = PMatch (c :: rest) [n] /\ class_item_of n = Ok [item_of i] /\ is_rule r_invert n = false.
Proof.
  intros H (S1 & S2 & S3). inversion H as [x Hx|a b Ha Hb]; subst; unfold item_part; rewrite run_alt by reflexivity.
  - exists (Node character [x] []). split; [|split; reflexivity]. cbn [app].
    assert (E : prun w false (PRule letter_range) (x :: c :: rest) = PFail); [|rewrite E; apply symbol_char; exact Hx].
    rewrite run_rule. cbn [atomic silent orb body seqs]. rewrite seq_eq by reflexivity. destruct Hx as [Hx|Hx].
    + rewrite alpha_runs by exact Hx. cbn [pbind skipped]. rewrite skip_solid by (split; auto). rewrite seq_eq by reflexivity. unfold tok. change (str "-") with [45%N]. rewrite tok_head by (cbn [head_not]; exact S3). reflexivity.
    + rewrite alpha_fails by (unfold ascii_letter; lia). reflexivity.
  - exists (Node letter_range [a; 45%N; b] []). split; [|split; reflexivity]. cbn [app].
    rewrite (loud_rule w letter_range (a :: 45%N :: b :: c :: rest) (c :: rest) [] eq_refl); [rewrite (consumed_app [a; 45%N; b] (c :: rest) : consumed (a :: 45%N :: b :: c :: rest) (c :: rest) = [a; 45%N; b]); reflexivity|]. cbn [atomic body seqs]. rewrite seq_eq by reflexivity. rewrite alpha_runs by exact Ha. cbn [pbind skipped].
    rewrite skip_dash by (unfold ascii_letter in Hb; lia). rewrite seq_eq by reflexivity. unfold tok. rewrite run_str. change (strip (str "-") (45%N :: b :: c :: rest)) with (Some (b :: c :: rest)). cbn [matched_or_fail pbind skipped].
    rewrite skip_solid by (unfold solid, ascii_letter in *; lia). rewrite alpha_runs by exact Hb. reflexivity.
Qed.
Lemma item_solid i t : writes_item i t -> exists c t', t = c :: t' /\ solid c /\ c <> 94%N.
Proof. intros H. inversion H as [x Hx|a b Ha Hb]; subst; do 2 eexists; (split; [reflexivity|]); unfold solid, ascii_letter in *; lia. Qed.
Lemma close_fails w rest : prun w false item_part (93%N :: rest) = PFail.
Proof.
  unfold item_part. rewrite run_alt by reflexivity. rewrite (run_rule w false letter_range). cbn [atomic silent orb body seqs]. rewrite seq_eq by reflexivity. rewrite alpha_fails by (unfold ascii_letter; lia). cbn [pbind].
  rewrite run_rule. cbn [atomic silent orb body choice]. do 3 (rewrite run_alt by reflexivity). rewrite alpha_fails by (unfold ascii_letter; lia).
  rewrite !(rule_head w false _ _ [] PAny (93%N :: rest)) by (try (right; reflexivity); cbn [head_not]; discriminate). reflexivity.
Qed.
Definition item_nodes (ns : list node) (items : list item) : Prop := Forall2 (fun n i => class_item_of n = Ok [item_of i] /\ is_rule r_invert n = false) ns items.
Lemma items_rep w items ts rest : Forall2 writes_item items ts ->
  exists ns, prun w false (PRep item_part) (concat ts ++ 93%N :: rest) = PMatch (93%N :: rest) ns /\ item_nodes ns items.
Proof.
  induction 1 as [|i t items ts Hi Hr IH]; cbn [concat app].
  - exists []. split; [|constructor]. rewrite run_rep by reflexivity. rewrite close_fails. reflexivity.
  - destruct IH as (ns & E & Hns).
    assert (Hc : exists c r, concat ts ++ 93%N :: rest = c :: r /\ solid c).
    { destruct Hr as [|i' t' items' ts' Hi' _]; [exists 93%N, rest; split; [reflexivity|unfold solid; lia]|]. destruct (item_solid i' t' Hi') as (c & t'' & -> & Hs & _). cbn [concat app]. eauto. }
    destruct Hc as (c & r & Ec & Hs). destruct (item_runs w i t c r Hi Hs) as (n & En & H1 & H2). exists (n :: ns). split; [|constructor; auto].
    rewrite <- app_assoc, Ec. rewrite run_rep by reflexivity. rewrite En. rewrite <- Ec in *.
    assert (Em : prun w false (PMore item_part) (concat ts ++ 93%N :: rest) = PMatch (93%N :: rest) ns); [|rewrite Em; reflexivity].
    assert (Es : skip_text (concat ts ++ 93%N :: rest) = concat ts ++ 93%N :: rest) by (rewrite Ec; apply skip_solid, Hs).
    destruct Hr as [|i' t' items' ts' Hi' Hr'].
    + cbn [concat app] in *. rewrite more_eq by reflexivity. cbn [skipped]. rewrite Es, close_fails. rewrite run_rep in E by reflexivity. rewrite close_fails in E. exact E.
    + assert (Hp : exists t1 n1, prun w false item_part (concat (t' :: ts') ++ 93%N :: rest) = PMatch t1 [n1]).
      { cbn [concat]. rewrite <- app_assoc. assert (Hc' : exists c r, concat ts' ++ 93%N :: rest = c :: r /\ solid c).
        { destruct Hr' as [|i'' t'' ? ? Hi'' _]; [exists 93%N, rest; split; [reflexivity|unfold solid; lia]|]. destruct (item_solid i'' t'' Hi'') as (c2 & t2 & -> & Hs2 & _). cbn [concat app]. eauto. }
        destruct Hc' as (c2 & r2 & Ec2 & Hs2). rewrite Ec2. destruct (item_runs w i' t' c2 r2 Hi' Hs2) as (n1 & E1 & _). eauto. }
      destruct Hp as (t1 & n1 & Hp). rewrite (more_rep w item_part _ t1 [n1] eq_refl); rewrite Es; [exact E|exact Hp].
Qed.
Lemma items_plus w items ts rest : Forall2 writes_item items ts -> items <> [] ->
  exists ns, prun w false (PPlus item_part) (concat ts ++ 93%N :: rest) = PMatch (93%N :: rest) ns /\ item_nodes ns items.
Proof.
  intros H Hn. destruct H as [|i t items ts Hi Hr]; [congruence|].
  assert (Hc : exists c r, concat ts ++ 93%N :: rest = c :: r /\ solid c).
  { destruct Hr as [|i' t' items' ts' Hi' _]; [exists 93%N, rest; split; [reflexivity|unfold solid; lia]|]. destruct (item_solid i' t' Hi') as (c & t'' & -> & Hs & _). cbn [concat app]. eauto. }
  destruct Hc as (c & r & Ec & Hs). destruct (item_runs w i t c r Hi Hs) as (n & En & H1 & H2). destruct (items_rep w items ts rest Hr) as (ns & E & Hns).
  exists (n :: ns). split; [|constructor; auto]. cbn [concat]. rewrite <- app_assoc, Ec. unfold PPlus. rewrite seq_eq by reflexivity. rewrite En. cbn [pbind skipped]. rewrite skip_solid by exact Hs. rewrite <- Ec, E. reflexivity.
Qed.
Lemma items_parse ns items : item_nodes ns items -> mapM class_item_of ns = Ok (map (fun i => [item_of i]) items) /\ existsb (is_rule r_invert) ns = false.
Proof. induction 1 as [|n i ns items [H1 H2] _ [IH1 IH2]]; [split; reflexivity|]. cbn [mapM existsb map]. rewrite H1, H2, IH1, IH2. split; reflexivity. Qed.
Lemma concat_singles {A B} (f : A -> B) l : concat (map (fun i => [f i]) l) = map f l.
Proof. induction l as [|x l IH]; [reflexivity|]. cbn [map concat app]. rewrite IH. reflexivity. Qed.
Lemma class_term w (neg : bool) items ts rest : Forall2 writes_item items ts -> items <> [] ->
  exists n, prun w false (PRule term) (91%N :: (if neg then [94%N] else []) ++ concat ts ++ 93%N :: rest) = PMatch rest [n] /\
    parse_term n = Ok (Some (CharClass (class_charset neg (map item_of items)))).
Proof.
  intros H Hn. destruct (items_plus w items ts rest H Hn) as (ns & E & Hns). destruct (items_parse ns items Hns) as [P1 P2].
  assert (Hh : exists c r, concat ts ++ 93%N :: rest = c :: r /\ solid c /\ c <> 94%N).
  { destruct H as [|i t items ts Hi Hr]; [congruence|]. destruct (item_solid i t Hi) as (c & t' & -> & Hs & Hx). cbn [concat app]. eauto. }
  destruct Hh as (c & r & Ec & Hs & Hx).
  assert (Hend : prun w false (PSeq (PPlus item_part) (tok "]")) (concat ts ++ 93%N :: rest) = PMatch rest ns).
  { rewrite seq_eq by reflexivity. rewrite E. cbn [pbind skipped]. rewrite skip_solid by (unfold solid; lia). change (prun w false (tok "]") (93%N :: rest)) with (PMatch rest []). cbn [pbind]. rewrite app_nil_r. reflexivity. }
  assert (Es : skip_text (concat ts ++ 93%N :: rest) = concat ts ++ 93%N :: rest) by (rewrite Ec; apply skip_solid, Hs).
  destruct neg.
  - eexists. split.
    + rewrite run_term. unfold term_rules. apply firsts_hit. apply loud_rule; [reflexivity|]. cbn [atomic body seqs app]. rewrite seq_eq by reflexivity.
      match goal with |- context [prun w false (tok "[") (91%N :: ?x)] => change (prun w false (tok "[") (91%N :: x)) with (PMatch x []) end.
      cbn [pbind skipped]. rewrite skip_solid by (unfold solid; lia). rewrite seq_eq by reflexivity. rewrite run_opt by reflexivity.
      rewrite (loud_rule w r_invert (94%N :: concat ts ++ 93%N :: rest) (concat ts ++ 93%N :: rest) [] eq_refl) by reflexivity. cbn [pbind skipped]. rewrite Es.
      fold item_part. rewrite Hend. cbn [pbind app]. reflexivity.
    + cbn [parse_term]. cbn [mapM]. change (class_item_of (Node r_invert ?t ?l)) with (@Ok (list class_item) []). cbn [bind]. rewrite P1. cbn [bind]. cbn [existsb]. change (is_rule r_invert (Node r_invert ?t ?l)) with true. cbn [orb concat app]. rewrite concat_singles. reflexivity.
  - eexists. split.
    + rewrite run_term. unfold term_rules. apply firsts_hit. apply loud_rule; [reflexivity|]. cbn [atomic body seqs app]. rewrite seq_eq by reflexivity.
      match goal with |- context [prun w false (tok "[") (91%N :: ?x)] => change (prun w false (tok "[") (91%N :: x)) with (PMatch x []) end.
      cbn [pbind skipped]. rewrite Es. rewrite seq_eq by reflexivity. rewrite run_opt by reflexivity.
      rewrite (rule_head w false r_invert 94 [] PAny) by (try (right; reflexivity); rewrite Ec; cbn [head_not]; exact Hx). cbn [pbind skipped]. rewrite Es.
      fold item_part. rewrite Hend. cbn [pbind app]. reflexivity.
    + cbn [parse_term]. rewrite P1, P2. cbn [bind]. rewrite concat_singles. reflexivity.
Qed.
