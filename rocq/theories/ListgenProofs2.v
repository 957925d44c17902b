(** Proofs about the generator of wordlists: words and their canonical forms, counting, reading the list. *)
From Coq Require Import String ZArith Permutation Sorting.
From Verif Require Export ListgenProofs.
From Verif Require Import WordsProofs.
Local Open Scope list_scope.

(** ** Trimming *)
Lemma letter_in c : is_letter c = true <-> In c ascii_letters.
Proof.
  unfold is_letter, in_range. split.
  - intros H. assert (B : (65 <= c <= 90)%N \/ (97 <= c <= 122)%N) by (destruct (N.leb_spec 65 c), (N.leb_spec c 90), (N.leb_spec 97 c), (N.leb_spec c 122); cbn in H; try discriminate; lia). clear H.
    assert (K : forall a n, (N.of_nat a <= c < N.of_nat a + N.of_nat n)%N -> In c (map N.of_nat (seq a n))).
    { intros a n H. apply in_map_iff. exists (N.to_nat c). split; [apply N2Nat.id | apply in_seq; lia]. }
    change ascii_letters with (map N.of_nat (seq 65 26) ++ map N.of_nat (seq 97 26)). apply in_or_app. destruct B; [left | right]; apply K; cbn [N.of_nat]; lia.
  - intros H. unfold ascii_letters in H. cbn in H. repeat (destruct H as [<- | H]; [reflexivity |]). contradiction.
Qed.
Lemma drop_spec f t : exists a, t = a ++ drop_while f t /\ Forall (fun c => f c = true) a /\ match drop_while f t with [] => True | c :: _ => f c = false end.
Proof.
  induction t as [|c t (a & H1 & H2 & H3)]; cbn [drop_while]; [exists []; repeat split; constructor|]. destruct (f c) eqn:E.
  - exists (c :: a). cbn [app]. rewrite <- H1. repeat split; [constructor; assumption|exact H3].
  - exists []. repeat split; [constructor|exact E].
Qed.
Definition bare (f : N -> bool) (g : text) : Prop := (exists c t, g = c :: t /\ f c = false) /\ exists t c, g = t ++ [c] /\ f c = false.
Lemma drop_app f a g : Forall (fun c => f c = true) a -> drop_while f (a ++ g) = drop_while f g.
Proof. induction 1 as [|c a Hc _ IH]; [reflexivity|]. cbn [app drop_while]. rewrite Hc. exact IH. Qed.
Lemma Forall_rev' {A} (P : A -> Prop) l : Forall P l -> Forall P (rev l).
Proof. intros H. apply Forall_forall. intros x Hx. apply in_rev in Hx. rewrite Forall_forall in H. auto. Qed.
Lemma trim_intro f a g b : Forall (fun c => f c = true) a -> Forall (fun c => f c = true) b -> bare f g -> trim f (a ++ g ++ b) = g.
Proof.
  intros Ha Hb [(c & t & Hg & Hc) (t' & c' & Hg' & Hc')]. unfold trim. rewrite drop_app by exact Ha.
  assert (E1 : drop_while f (g ++ b) = g ++ b) by (rewrite Hg; cbn [app drop_while]; rewrite Hc; reflexivity). rewrite E1, rev_app_distr, drop_app by (apply Forall_rev'; exact Hb).
  assert (E2 : drop_while f (rev g) = rev g) by (rewrite Hg', rev_app_distr; cbn [rev app drop_while]; rewrite Hc'; reflexivity). rewrite E2. apply rev_involutive.
Qed.
Lemma trim_spec f t : trim f t = [] /\ Forall (fun c => f c = true) t \/
  exists a b, t = a ++ trim f t ++ b /\ Forall (fun c => f c = true) a /\ Forall (fun c => f c = true) b /\ bare f (trim f t).
Proof.
  unfold trim. destruct (drop_spec f t) as (a & H1 & H2 & H3). destruct (drop_while f t) as [|c r] eqn:Ed.
  - left. rewrite app_nil_r in H1. subst t. split; [reflexivity|exact H2].
  - right. destruct (drop_spec f (rev (c :: r))) as (b & G1 & G2 & G3). set (y := drop_while f (rev (c :: r))) in *. exists a, (rev b).
    assert (E : c :: r = rev y ++ rev b) by (rewrite <- rev_app_distr, <- G1, rev_involutive; reflexivity). rewrite E in H1. split; [exact H1|]. split; [exact H2|]. split; [apply Forall_rev'; exact G2|].
    destruct y as [|c' r'].
    + cbn [rev app] in E. apply Forall_rev' in G2. rewrite <- E in G2. inversion G2; congruence.
    + cbn [rev] in E |- *. split; [|exists (rev r'), c'; split; [reflexivity|exact G3]].
      destruct (rev r') as [|c2 r2] eqn:Er; cbn [app] in E |- *; injection E as E1 _; subst; eauto.
Qed.
Lemma trim_nil f t : trim f t = [] <-> Forall (fun c => f c = true) t.
Proof.
  split; intros H; destruct (trim_spec f t) as [[H1 H2]|(a & b & H1 & H2 & H3 & (c & r & H4 & H5) & _)]; auto.
  - rewrite H in H4. discriminate.
  - exfalso. rewrite H4 in H1. rewrite H1 in H. apply Forall_app in H. destruct H as [_ H]. cbn [app] in H. inversion H; congruence.
Qed.

(** ** What is kept of a text *)
Lemma starts_iff x : forall t, starts x t = true <-> exists b, t = x ++ b.
Proof.
  induction x as [|c x IH]; intros t; cbn [starts app]; [split; eauto|]. destruct t as [|d t]; [split; [discriminate|intros (b & H); discriminate]|].
  rewrite andb_true_iff, N.eqb_eq, IH. split; [intros (-> & b & ->); eauto|intros (b & H); injection H as -> ->; eauto].
Qed.
Lemma contains_iff x t : contains x t = true <-> occurs x t.
Proof.
  unfold occurs. induction t as [|c t IH]; cbn [contains]; rewrite orb_true_iff, starts_iff.
  - split; [intros [(b & H)|H]; [exists [], b; exact H|discriminate]|]. intros (a & b & H). symmetry in H. apply app_eq_nil in H. destruct H as [-> H]. left. exists b. symmetry. exact H.
  - rewrite IH. split.
    + intros [(b & H)|(a & b & ->)]; [exists [], b; exact H|exists (c :: a), b; reflexivity].
    + intros ([|d a] & b & H); [left; exists b; exact H|right]. cbn [app] in H. injection H as <- H. exists a, b. exact H.
Qed.
Lemma whole_line t : Forall (fun c => c <> 10%N) t -> first_line t = t.
Proof. induction 1 as [|c t Hc _ IH]; cbn [first_line]; [reflexivity|]. apply N.eqb_neq in Hc. rewrite Hc, IH. reflexivity. Qed.
Lemma stripped_trim p w g : stripped p w g <-> g <> [] /\ trim (fun c => negb (p_word p c)) w = g.
Proof.
  assert (HF : forall a, Forall (fun c => p_word p c = false) a <-> Forall (fun c => negb (p_word p c) = true) a).
  { intros a. rewrite !Forall_forall. split; intros H c Hc; specialize (H c Hc); destruct (p_word p c); auto. }
  assert (HB : forall b, negb b = false <-> b = true) by (intros []; cbn; split; auto).
  split.
  - intros (a & b & -> & Ha & Hb & (c & t & Hg & Hc) & (t' & c' & Hg' & Hc')). split; [rewrite Hg; discriminate|]. apply trim_intro; [apply HF, Ha|apply HF, Hb|].
    split; [exists c, t|exists t', c']; (split; [assumption|apply HB; assumption]).
  - intros [Hne <-]. destruct (trim_spec (fun c => negb (p_word p c)) w) as [[H _]|(a & b & H1 & H2 & H3 & (c & t & H4 & H5) & (t' & c' & H6 & H7))]; [congruence|].
    exists a, b. split; [exact H1|]. split; [apply HF, H2|]. split; [apply HF, H3|]. split; [exists c, t|exists t', c']; (split; [assumption|apply HB; assumption]).
Qed.
Lemma no_dash g : ~ In 8211%N g -> flat_map (fun c => if N.eqb c 8211 then [45%N] else [c]) g = g.
Proof.
  induction g as [|c g IH]; intros H; [reflexivity|]. cbn [flat_map In] in *. destruct (N.eqb_spec c 8211); [tauto|]. cbn [app]. f_equal. apply IH. tauto.
Qed.
Lemma existsb_in c l : existsb (N.eqb c) l = true <-> In c l.
Proof. rewrite existsb_exists. split; [intros (x & Hx & E); apply N.eqb_eq in E; subst; exact Hx|intros H; exists c; split; [exact H|apply N.eqb_refl]]. Qed.
Lemma strip_word_kept p w g : sane p -> Forall (fun c => p_space p c = false) w -> g <> [] -> (strip_word p w = g <-> kept p w g).
Proof.
  intros Hs Hw Hne. assert (Hl : first_line w = w).
  { apply whole_line. eapply Forall_impl; [|exact Hw]. intros c Hc ->. pose proof (s_newline _ Hs). congruence. }
  assert (Hinner : forall x, forallb (inner p) x = true <-> forall c, In c x -> p_word p c = true \/ In c (str "/-,.&'")).
  { intros x. rewrite forallb_forall. split; intros H c Hc; specialize (H c Hc).
    - unfold inner in H. apply orb_true_iff in H. destruct H as [H|H]; [auto|]. apply existsb_in in H. right. exact H.
    - unfold inner. apply orb_true_iff. destruct H as [H|H]; [auto|]. right. apply existsb_in. exact H. }
  assert (Hd : forall x, forallb (inner p) x = true -> ~ In 8211%N x).
  { intros x Hx Hi. apply Hinner with (c := 8211%N) in Hx; [|exact Hi]. destruct Hx as [Hx|Hx]; [pose proof (s_dash _ Hs); congruence|]. cbn in Hx. intuition discriminate. }
  unfold strip_word, kept. rewrite Hl. split.
  - intros H. destruct (existsb is_letter w) eqn:E1; cbn [negb] in H; [|congruence]. unfold core in H.
    destruct (trim (fun c => negb (p_word p c)) w) as [|x t] eqn:E2; [congruence|]. set (y := x :: t) in *. destruct (forallb (inner p) y) eqn:E3; [|congruence].
    destruct (existsb (N.eqb 95) y) eqn:E4; [congruence|]. rewrite (no_dash y (Hd _ E3)) in H.
    destruct (contains (str "www.") y) eqn:E5; cbn [orb] in H; [congruence|]. destruct (domain y) eqn:E6; [congruence|]. subst y. cbn zeta in *. rewrite H in *.
    assert (Hst : stripped p w g) by (apply stripped_trim; auto).
    assert (Hlg : first_line g = g).
    { apply whole_line. apply Forall_forall. intros c Hc ->. destruct Hst as (a & b & -> & _). rewrite Forall_forall in Hw. pose proof (s_newline _ Hs). rewrite (Hw 10%N) in H0; [discriminate|].
      apply in_app_iff. right. apply in_app_iff. auto. }
    split; [exact Hst|]. split; [apply existsb_exists in E1; destruct E1 as (c & Ic & E1); exists c; split; [exact Ic | apply letter_in, E1]|]. split; [apply Hinner, E3|]. split; [intros Hi; apply existsb_in in Hi; congruence|].
    split; [intros Ho; apply contains_iff in Ho; congruence|]. intros d Hdm Ho. apply contains_iff in Ho. unfold domain in E6. rewrite Hlg in E6.
    assert (existsb (fun x => contains x g) top_domains = true) by (apply existsb_exists; exists d; auto). unfold top_domains in *. congruence.
  - intros (H1 & H2 & H3 & H4 & H5 & H6). apply stripped_trim in H1. destruct H1 as [_ H1]. assert (H2' : existsb is_letter w = true) by (destruct H2 as (c & Ic & Lc); apply existsb_exists; exists c; split; [exact Ic | apply letter_in, Lc]). rewrite H2'. cbn [negb]. unfold core. rewrite H1.
    destruct g as [|x t]; [congruence|]. set (y := x :: t) in *. apply Hinner in H3. rewrite H3.
    destruct (existsb (N.eqb 95) y) eqn:E4; [apply existsb_in in E4; tauto|]. rewrite (no_dash y (Hd _ H3)).
    destruct (contains (str "www.") y) eqn:E5; [apply contains_iff in E5; tauto|]. cbn [orb]. destruct (domain y) eqn:E6; [|reflexivity]. exfalso.
    assert (Hlg : first_line y = y).
    { apply whole_line. apply Forall_forall. intros c Hc ->. destruct (proj2 (stripped_trim p w y) (conj Hne H1)) as (a & b & -> & _). rewrite Forall_forall in Hw. pose proof (s_newline _ Hs) as Hn. rewrite (Hw 10%N) in Hn; [discriminate|].
      apply in_app_iff. right. apply in_app_iff. auto. }
    unfold domain in E6. rewrite Hlg in E6. apply existsb_exists in E6. destruct E6 as (d & Hdm & Hc). apply contains_iff in Hc. exact (H6 d Hdm Hc).
Qed.

(** ** Canonical forms *)
Definition ascii (t : text) : Prop := Forall (fun c => (c < 128)%N) t.
Lemma flat_single {A B} (f : A -> list B) (g : A -> B) l : Forall (fun a => f a = [g a]) l -> flat_map f l = map g l.
Proof. induction 1 as [|a l Ha _ IH]; cbn [flat_map map]; [reflexivity|]. rewrite Ha, IH. reflexivity. Qed.
Definition small (c : N) : N := if in_range 65 90 c then (c + 32)%N else c.
Lemma casefold_ascii p t : sane p -> ascii t -> casefold p t = map small t.
Proof. intros Hs Ht. apply flat_single. eapply Forall_impl; [|exact Ht]. intros c Hc. apply (s_fold _ Hs c Hc). Qed.
Lemma filter_all {A} (f : A -> bool) l : Forall (fun a => f a = true) l -> filter f l = l.
Proof. induction 1 as [|a l Ha _ IH]; cbn [filter]; [reflexivity|]. rewrite Ha, IH. reflexivity. Qed.
Lemma small_ascii t : ascii t -> ascii (map small t).
Proof. intros H. apply Forall_forall. intros c Hc. apply in_map_iff in Hc. destruct Hc as (x & <- & Hx). unfold ascii in H. rewrite Forall_forall in H. specialize (H x Hx). unfold small, in_range. destruct (N.leb_spec 65 x), (N.leb_spec x 90); cbn [andb]; lia. Qed.
(** ASCII words *)
Lemma canonical_ascii p w : sane p -> ascii w -> canonicalize p w = if existsb is_digit w then [] else trim (fun c => negb (is_lower c)) (map small w).
Proof.
  intros Hs Hw. unfold canonicalize. destruct (existsb is_digit w); [reflexivity|].
  assert (E1 : flat_map unligature w = w).
  { rewrite (flat_single unligature (fun c => c)); [apply map_id|]. eapply Forall_impl; [|exact Hw]. intros c Hc. cbn beta in Hc. unfold unligature.
    repeat match goal with |- context [N.eqb c ?n] => destruct (N.eqb_spec c n); [lia|] end. reflexivity. }
  rewrite E1, (s_nfkd _ Hs w Hw), filter_all, casefold_ascii; [|exact Hs|exact Hw|].
  - assert (E2 : forallb (fun c => N.ltb c 128) (map small w) = true).
    { apply forallb_forall. intros c Hc. apply N.ltb_lt. pose proof (small_ascii w Hw) as H. unfold ascii in H. rewrite Forall_forall in H. auto. }
    rewrite E2. reflexivity.
  - eapply Forall_impl; [|exact Hw]. intros c Hc. rewrite (s_comb _ Hs c Hc). reflexivity.
Qed.
(** Canonical forms are [] or begin and end with a small letter, and consist of ASCII characters that are not capital letters *)
Lemma canonical_shape p w : canonicalize p w <> [] -> ascii (canonicalize p w) /\ bare (fun c => negb (is_lower c)) (canonicalize p w).
Proof.
  unfold canonicalize. intros H. destruct (existsb is_digit w); [congruence|]. set (t := casefold p _) in *. destruct (forallb (fun c => N.ltb c 128) t) eqn:E; [|congruence].
  destruct (trim_spec (fun c => negb (is_lower c)) t) as [[Hn _]|(a & b & H1 & _ & _ & H4)]; [congruence|]. split; [|exact H4].
  apply Forall_forall. intros c Hc. apply N.ltb_lt. rewrite forallb_forall in E. apply E. rewrite H1. apply in_app_iff. right. apply in_app_iff. auto.
Qed.
Definition folded (p : python) : Prop := forall c x, In x (p_casefold p c) -> ~ (65 <= x <= 90)%N.
Lemma canonical_small p w : folded p -> Forall (fun c => ~ (65 <= c <= 90)%N) (canonicalize p w).
Proof.
  intros Hf. unfold canonicalize. destruct (existsb is_digit w); [constructor|]. set (f := filter _ _). destruct (forallb _ (casefold p f)); [|constructor].
  assert (HA : Forall (fun c => ~ (65 <= c <= 90)%N) (casefold p f)).
  { apply Forall_forall. intros x Hx. apply in_flat_map in Hx. destruct Hx as (c & _ & Hx). exact (Hf _ _ Hx). }
  destruct (trim_spec (fun c => negb (is_lower c)) (casefold p f)) as [[-> _]|(a & b & H1 & _)]; [constructor|].
  rewrite H1 in HA. apply Forall_app in HA. destruct HA as [_ HA]. apply Forall_app in HA. apply HA.
Qed.
Lemma trim_bare f t : bare f t -> trim f t = t.
Proof. intros H. pose proof (trim_intro f [] t [] (Forall_nil _) (Forall_nil _) H) as E. cbn [app] in E. rewrite app_nil_r in E. exact E. Qed.
Lemma small_id t : Forall (fun c => ~ (65 <= c <= 90)%N) t -> map small t = t.
Proof. induction 1 as [|c t Hc _ IH]; cbn [map]; [reflexivity|]. rewrite IH. f_equal. unfold small, in_range. destruct (N.leb_spec 65 c), (N.leb_spec c 90); cbn [andb]; reflexivity || lia. Qed.
Lemma canonical_again p w : sane p -> folded p -> canonicalize p (canonicalize p w) = if existsb is_digit (canonicalize p w) then [] else canonicalize p w.
Proof.
  intros Hs Hf. pose proof (canonical_small p w Hf) as Hsm. assert (E0 : canonicalize p [] = []).
  { rewrite canonical_ascii by (assumption || constructor). reflexivity. }
  destruct (canonicalize p w) as [|c k] eqn:E; [exact E0|]. assert (Hne : canonicalize p w <> []) by congruence.
  destruct (canonical_shape _ _ Hne) as [Ha Hb]. rewrite E in Ha, Hb. rewrite canonical_ascii by assumption. rewrite small_id by exact Hsm. rewrite trim_bare by exact Hb. reflexivity.
Qed.

(** ** Counting *)
Definition summed (f : text -> bool) (d : dict Z) : Z := total_of (map snd (filter (fun e => f (fst e)) d)).
Lemma summed_cons f k n d : summed f ((k, n) :: d) = ((if f k then n else 0) + summed f d)%Z.
Proof. unfold summed. cbn [filter fst]. destruct (f k); reflexivity. Qed.
Lemma summed_app f a b : summed f (a ++ b) = (summed f a + summed f b)%Z.
Proof. unfold summed. rewrite filter_app, map_app, total_app. reflexivity. Qed.
Lemma summed_set f d k v : summed f (set d k v) = (summed f d + (if f k then v - get0 d k else 0))%Z.
Proof.
  unfold get0. induction d as [|[y w] d IH]; cbn [set get].
  - rewrite summed_cons. change (summed f []) with 0%Z. destruct (f k); lia.
  - destruct (teq_spec y k) as [->|Hne]; rewrite !summed_cons; [destruct (f k); lia|]. rewrite IH. lia.
Qed.
Lemma summed_add f d e : summed f (add_to d e) = (summed f d + summed f [e])%Z.
Proof. destruct e as [k n]. unfold add_to. cbn [fst snd]. rewrite summed_set, summed_cons. change (summed f []) with 0%Z. destruct (f k); lia. Qed.
Lemma summed_fold f l : forall d, summed f (fold_left add_to l d) = (summed f d + summed f l)%Z.
Proof.
  induction l as [|e l IH]; intros d; cbn [fold_left]; [change (summed f []) with 0%Z; lia|]. rewrite IH, summed_add. change (e :: l) with ([e] ++ l). rewrite summed_app. lia.
Qed.
Lemma summed_words f ws : summed f (count_words ws) = Z.of_nat (length (filter f ws)).
Proof.
  unfold count_words. rewrite summed_fold. change (summed f []) with 0%Z. cbn [Z.add]. induction ws as [|w ws IH]; [reflexivity|]. cbn [map filter]. rewrite summed_cons, IH. destruct (f w); cbn [length]; lia.
Qed.
Lemma summed_merge f files : summed f (merge_counts files) = total_of (map (summed f) files).
Proof.
  unfold merge_counts. rewrite summed_fold. change (summed f []) with 0%Z. cbn [Z.add]. induction files as [|d files IH]; [reflexivity|]. cbn [concat map]. rewrite summed_app, IH. reflexivity.
Qed.
Lemma summed_files f (g : article -> list text) files : total_of (map (fun file => summed f (count_words (flat_map g file))) files) = Z.of_nat (length (filter f (flat_map g (concat files)))).
Proof.
  induction files as [|x files IH]; [reflexivity|]. cbn [map concat]. rewrite flat_map_app, filter_app, app_length. change (total_of (?a :: ?b)) with (a + total_of b)%Z.
  cbn [total_of fold_right]. change (fold_right Z.add 0%Z ?l) with (total_of l). rewrite IH, summed_words. lia.
Qed.
Lemma add_keys d e x : In x (map fst (add_to d e)) <-> x = fst e \/ In x (map fst d).
Proof. apply set_in. Qed.


Section forms.
  Variable p : python.
  Hypothesis Hs : sane p.
  Hypothesis Hf : folded p.
  Definition formed (F : dict text) : Prop := forall kc f, get F kc = Some f -> f = kc /\ (exists w, canonicalize p w = kc) \/ canonicalize p f = kc.
  Definition extends (F F' : dict text) : Prop := forall kc f, get F kc = Some f -> get F' kc = Some f.
  Definition proper (k : text) : Prop := k <> [] /\ canonicalize p k = k.
  Lemma formed_has F kc f k : formed F -> get F kc = Some f -> proper k -> has_form p k f = text_eqb kc k.
  Proof.
    intros HF Hg [Hk Hc]. unfold has_form. destruct (HF _ _ Hg) as [[-> [w Hw]]|<-]; [|reflexivity].
    pose proof (canonical_again p w Hs Hf) as Ha. rewrite Hw in Ha. destruct (teq_spec kc k) as [->|Hne]; [rewrite Hc; apply teq_refl|].
    apply teq_no. rewrite Ha. destruct (existsb is_digit kc); congruence.
  Qed.
  Lemma count_summed k d : count_form p k d = summed (has_form p k) d.
  Proof. reflexivity. Qed.
  Lemma set_positive (d : dict Z) k v : (1 <= v)%Z -> Forall (fun e => (1 <= snd e)%Z) d -> Forall (fun e => (1 <= snd e)%Z) (set d k v).
  Proof.
    intros Hv Hd. induction Hd as [|[x y] d Hx Hd IH]; cbn [set]; [constructor; [exact Hv|constructor]|].
    destruct (text_eqb x k); constructor; try assumption.
  Qed.
  Lemma get0_nonneg (d : dict Z) k : Forall (fun e => (1 <= snd e)%Z) d -> (0 <= get0 d k)%Z.
  Proof.
    unfold get0. intros Hd. induction Hd as [|[x y] d Hx Hd IH]; cbn [get]; [lia|]. destruct (text_eqb x k); [cbn [snd] in Hx; lia|exact IH].
  Qed.
  Lemma add_positive (d : dict Z) e : (1 <= snd e)%Z -> Forall (fun e => (1 <= snd e)%Z) d -> Forall (fun e => (1 <= snd e)%Z) (add_to d e).
  Proof. intros He Hd. apply set_positive; [|exact Hd]. pose proof (get0_nonneg d (fst e) Hd). lia. Qed.
  (** One pass over the counts [c] *)
  Lemma pass title body c : forall F new, formed F -> (forall x, In x (map fst new) -> exists kc, get F kc = Some x) ->
    exists F' new', fold_left (choose_form p title body) c (F, new) = (F', new') /\ formed F' /\ extends F F' /\
      (forall x, In x (map fst new') -> exists kc, get F' kc = Some x) /\
      (NoDup (map fst new) -> NoDup (map fst new')) /\
      (Forall (fun e => (1 <= snd e)%Z) new -> Forall (fun e => (1 <= snd e)%Z) c -> Forall (fun e => (1 <= snd e)%Z) new') /\
      (forall k, proper k -> count_form p k new' = (count_form p k new + count_form p k c)%Z).
  Proof.
    induction c as [|[w n] c IH]; intros F new HF Hn.
    - exists F, new. cbn [fold_left]. repeat split; auto.
      + intros kc f H; exact H.
      + intros k _. change (count_form p k []) with 0%Z. lia.
    - cbn [fold_left].
      set (kc := canonicalize p w).
      set (F1 := match get F kc with Some _ => F | None => if (n <=? 100 * (get0 title kc + get0 body kc))%Z then set F kc kc else set F kc w end).
      assert (H1 : exists f, get F1 kc = Some f /\ choose_form p title body (F, new) (w, n) = (F1, add_to new (f, n))).
      { unfold choose_form. fold kc. fold F1. assert (Hg : exists f, get F1 kc = Some f).
        { unfold F1. destruct (get F kc) as [f|] eqn:E; [exists f; exact E|]. destruct (_ <=? _)%Z; rewrite get_set, teq_refl; eauto. }
        destruct Hg as [f Hg]. exists f. split; [exact Hg|]. rewrite Hg. reflexivity. }
      destruct H1 as (f & Hg & ->).
      assert (He : extends F F1).
      { intros x y Hx. unfold F1. destruct (get F kc) as [f'|] eqn:E; [exact Hx|]. assert (kc <> x) by congruence.
        destruct (_ <=? _)%Z; rewrite get_set, teq_no by assumption; exact Hx. }
      assert (HF1 : formed F1).
      { intros x y Hx. unfold F1 in Hx. destruct (get F kc) as [f'|] eqn:E; [apply HF; exact Hx|].
        destruct (_ <=? _)%Z; rewrite get_set in Hx; destruct (teq_spec kc x) as [<-|Hne]; try (apply HF; exact Hx); injection Hx as <-.
        - left. split; [reflexivity|]. exists w. reflexivity.
        - right. reflexivity. }
      destruct (IH F1 (add_to new (f, n)) HF1) as (F' & new' & E & A1 & A2 & A3 & A4 & A5 & A6).
      { intros x Hx. apply add_keys in Hx. cbn [fst] in Hx. destruct Hx as [->|Hx]; [exists kc; exact Hg|]. destruct (Hn x Hx) as [y Hy]. exists y. apply He. exact Hy. }
      exists F', new'. split; [exact E|]. split; [exact A1|]. split; [intros x y Hx; apply A2, He; exact Hx|]. split; [exact A3|].
      split; [intros Hnd; apply A4; unfold add_to; apply set_nodup; exact Hnd|].
      split; [intros Hp Hc; inversion Hc as [|? ? Hc1 Hc2]; subst; apply A5; [apply add_positive; assumption|exact Hc2]|].
      intros k Hk. rewrite A6 by exact Hk. rewrite !count_summed. rewrite summed_add, summed_cons, (summed_cons _ w). change (summed _ []) with 0%Z.
      rewrite (formed_has F1 kc f k) by assumption. change (has_form p k w) with (text_eqb kc k). lia.
  Qed.
  Lemma fold_positive l : forall d, Forall (fun e : text * Z => (1 <= snd e)%Z) l -> Forall (fun e => (1 <= snd e)%Z) d -> Forall (fun e => (1 <= snd e)%Z) (fold_left add_to l d).
  Proof. induction l as [|e l IH]; intros d Hl Hd; [exact Hd|]. inversion Hl; subst. cbn [fold_left]. apply IH; [assumption|]. apply add_positive; assumption. Qed.
  Lemma count_positive ws : Forall (fun e => (1 <= snd e)%Z) (count_words ws).
  Proof. unfold count_words. apply fold_positive; [|constructor]. apply Forall_forall. intros x Hx. apply in_map_iff in Hx. destruct Hx as (? & <- & _). cbn [snd]. lia. Qed.
  Lemma merge_positive files : Forall (Forall (fun e : text * Z => (1 <= snd e)%Z)) files -> Forall (fun e => (1 <= snd e)%Z) (merge_counts files).
  Proof.
    intros H. unfold merge_counts. apply fold_positive; [|constructor]. induction H; [constructor|]. cbn [concat]. apply Forall_app. split; assumption.
  Qed.
  Lemma files_counted files title body : word_frequency p (map (extract p) files) = (title, body) ->
    (forall k, proper k -> count_form p k title = number_of p k (flat_map (title_words p) (concat files)) /\
                           count_form p k body = number_of p k (flat_map (body_words p) (concat files))) /\
    (forall k, proper k -> exists f, forall w, In w (map fst title ++ map fst body) -> canonicalize p w = k -> w = f) /\
    NoDup (map fst title) /\ NoDup (map fst body) /\
    Forall (fun e => (1 <= snd e)%Z) (title ++ body).
  Proof.
    unfold word_frequency. cbv zeta. set (T := merge_counts (map fst _)). set (B := merge_counts (map snd _)).
    assert (HT : Forall (fun e => (1 <= snd e)%Z) T) by (apply merge_positive; rewrite map_map; apply Forall_forall; intros x Hx; apply in_map_iff in Hx; destruct Hx as (? & <- & _); apply count_positive).
    assert (HB : Forall (fun e => (1 <= snd e)%Z) B) by (apply merge_positive; rewrite map_map; apply Forall_forall; intros x Hx; apply in_map_iff in Hx; destruct Hx as (? & <- & _); apply count_positive).
    assert (CT : forall k, count_form p k T = number_of p k (flat_map (title_words p) (concat files))).
    { intros k. rewrite count_summed. unfold T. rewrite summed_merge, !map_map. unfold extract. cbn [fst]. unfold number_of. rewrite <- summed_files. reflexivity. }
    assert (CB : forall k, count_form p k B = number_of p k (flat_map (body_words p) (concat files))).
    { intros k. rewrite count_summed. unfold B. rewrite summed_merge, !map_map. unfold extract. cbn [snd]. unfold number_of. rewrite <- summed_files. reflexivity. }
    clearbody T B.
    destruct (pass T B T [] []) as (F1 & t1 & E1 & A1 & A2 & A3 & A4 & A5 & A6); [intros x y H; discriminate|intros x []|]. unfold dict in E1 |- *. rewrite E1.
    destruct (pass t1 B B F1 []) as (F2 & b1 & E2 & B1 & B2 & B3 & B4 & B5 & B6); [exact A1|intros x []|]. unfold dict in E2 |- *. rewrite E2. intros E. injection E as <- <-.
    split; [|split; [|split; [apply A4; constructor|split; [apply B4; constructor|apply Forall_app; split; [apply A5|apply B5]; (constructor || assumption)]]]].
    - intros k Hk. rewrite A6, B6 by exact Hk. change (count_form p k []) with 0%Z. rewrite CT, CB. lia.
    - intros k Hk. assert (Hu : forall w, In w (map fst t1 ++ map fst b1) -> canonicalize p w = k -> get F2 k = Some w).
      { intros w Hw Hc. assert (Hg : exists kc, get F2 kc = Some w) by (apply in_app_iff in Hw; destruct Hw as [Hw|Hw]; [destruct (A3 w Hw) as [y Hy]; exists y; apply B2; exact Hy|apply B3; exact Hw]).
        destruct Hg as [kc Hg]. pose proof (formed_has F2 kc w k B1 Hg Hk) as Hh. unfold has_form in Hh. rewrite Hc, teq_refl in Hh. symmetry in Hh. apply teq in Hh. congruence. }
      destruct (get F2 k) as [f|] eqn:E; [exists f|exists []]; intros w Hw Hc; specialize (Hu w Hw Hc); congruence.
  Qed.
End forms.

(** ** Ligatures *)
Lemma ligature_none w v : no_ligatures w v -> flat_map unligature w = v /\ flat_map unligature v = v /\ existsb is_digit v = existsb is_digit w.
Proof.
  induction 1 as [| w v _ (E1 & E2 & E3) | w v _ (E1 & E2 & E3) | w v _ (E1 & E2 & E3) | w v _ (E1 & E2 & E3) | c w v N _ (E1 & E2 & E3)]; [auto | | | | |].
  1-4: split; [cbn [flat_map]; rewrite E1; reflexivity |]; split; [rewrite flat_map_app, E2; reflexivity |]; rewrite existsb_app, E3; reflexivity.
  cbn [In] in N. assert (U : unligature c = [c]) by (unfold unligature; repeat match goal with |- context [N.eqb c ?n] => destruct (N.eqb_spec c n); [subst c; tauto |] end; reflexivity).
  cbn [flat_map existsb]. rewrite U, E1, E2, E3. auto.
Qed.
Lemma canonical_ligatures p w v : no_ligatures w v -> canonicalize p w = canonicalize p v.
Proof. intros H. destruct (ligature_none w v H) as (E1 & E2 & E3). unfold canonicalize. rewrite E1, E2, E3. reflexivity. Qed.
