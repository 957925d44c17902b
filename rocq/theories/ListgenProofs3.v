(** Proofs about the generator of wordlists: order of the lines, values, frequent words, loading the list. *)
From Coq Require Import String ZArith Permutation Sorting.
From Verif Require Import WordsProofs JsonProofs Parser Tables.
From Verif Require Export ListgenProofs2.
Local Open Scope list_scope.

(** ** The list as a set of lines *)
Lemma last_in p k l w : last_use p k l = Some w -> exists c, In (c, w) l /\ w <> [] /\ canonicalize p w = k.
Proof.
  unfold last_use. destruct (rev (uses p k l)) as [|[c x] r] eqn:E; [discriminate|]. intros H. injection H as <-. cbn [snd].
  assert (Hi : In (c, x) (uses p k l)) by (apply in_rev; rewrite E; left; reflexivity).
  apply filter_In in Hi. destruct Hi as [Hi Hx]. cbn [snd] in Hx. exists c. split; [exact Hi|]. destruct x; [discriminate|]. split; [discriminate|]. apply teq. exact Hx.
Qed.
Lemma listed_forms p value all total least ks f : Forall2 (listed_as p value all total least) ks f ->
  map (fun line => canonicalize p (snd line)) f = map snd ks.
Proof.
  intros H. induction H as [|e line ks f [_ Hl] H IH]; [reflexivity|]. cbn [map]. rewrite IH. f_equal. destruct (last_in _ _ _ _ Hl) as (c & _ & _ & E). exact E.
Qed.
Lemma listed_values p value all total least ks f : Forall2 (listed_as p value all total least) ks f ->
  map fst f = map (fun e => value total least (fst e)) ks.
Proof. intros H. induction H as [|e line ks f [Hl _] H IH]; [reflexivity|]. cbn [map]. rewrite IH, Hl. reflexivity. Qed.
Lemma sorted_unique l : forall l', StronglySorted higher l -> StronglySorted higher l' -> (forall e, In e l <-> In e l') -> l = l'.
Proof.
  induction l as [|a l IH]; intros [|b l'] H1 H2 He.
  - reflexivity.
  - destruct (proj2 (He b) (or_introl eq_refl)).
  - destruct (proj1 (He a) (or_introl eq_refl)).
  - inversion H1 as [|? ? S1 F1]; inversion H2 as [|? ? S2 F2]; subst. rewrite Forall_forall in F1, F2.
    assert (a = b).
    { destruct (proj1 (He a) (or_introl eq_refl)) as [->|Ha]; [reflexivity|]. destruct (proj2 (He b) (or_introl eq_refl)) as [->|Hb]; [reflexivity|].
      destruct (higher_irr a). eapply higher_trans; [apply F1; exact Hb|apply F2; exact Ha]. }
    subst b. f_equal. apply IH; try assumption. intros e. split; intros Hi.
    + destruct (proj1 (He e) (or_intror Hi)) as [<-|]; [|assumption]. destruct (higher_irr a). apply F1. exact Hi.
    + destruct (proj2 (He e) (or_intror Hi)) as [<-|]; [|assumption]. destruct (higher_irr a). apply F2. exact Hi.
Qed.
Lemma total_perm a b : Permutation a b -> total_of a = total_of b.
Proof. intros H. induction H; unfold total_of in *; cbn [fold_right]; lia. Qed.
Lemma filter_perm {A} (g : A -> bool) a b : Permutation a b -> Permutation (filter g a) (filter g b).
Proof.
  intros H. induction H; cbn [filter].
  - constructor.
  - destruct (g x); [apply perm_skip|]; assumption.
  - destruct (g x), (g y); try reflexivity. apply perm_swap.
  - etransitivity; eassumption.
Qed.
Lemma uses_perm p k a b : Permutation a b -> Permutation (uses p k a) (uses p k b).
Proof. apply filter_perm. Qed.
Lemma deserves_perm p a b k n : Permutation a b -> deserves p a k n -> deserves p b k n.
Proof.
  intros H (H1 & H2 & H3 & H4). pose proof (uses_perm p k a b H) as Hp. repeat split; try assumption.
  - intros E. rewrite E in Hp. apply H3. apply Permutation_nil. symmetry. exact Hp.
  - rewrite H4. apply total_perm, Permutation_map. exact Hp.
Qed.
Lemma create_order p value cutoff w t b w' t' b' f1 f2 f3 f1' f2' f3' : positive w -> positive t -> positive b ->
  Permutation w w' -> Permutation t t' -> Permutation b b' ->
  create_wordlist p value cutoff w t b = Ok (f1, f2, f3) -> create_wordlist p value cutoff w' t' b' = Ok (f1', f2', f3') ->
  map fst f3 = map fst f3' /\ map (fun line => canonicalize p (snd line)) f3 = map (fun line => canonicalize p (snd line)) f3'.
Proof.
  intros Pw Pt Pb Qw Qt Qb H H'. pose proof (create_listed _ _ _ _ _ _ _ _ _ Pw Pt Pb H) as (ks & least & K1 & K2 & K3 & _ & K4 & K5).
  assert (Hpos : forall l l', Permutation l l' -> positive l -> positive l') by (intros l l' Hp; apply Permutation_Forall; exact Hp).
  pose proof (create_listed _ _ _ _ _ _ _ _ _ (Hpos _ _ Qw Pw) (Hpos _ _ Qt Pt) (Hpos _ _ Qb Pb) H') as (ks' & least' & L1 & L2 & L3 & _ & L4 & L5).
  assert (Hall : Permutation (w ++ tripled t ++ b) (w' ++ tripled t' ++ b')) by (unfold tripled; repeat (apply Permutation_app; auto using Permutation_map)).
  assert (ks = ks').
  { apply sorted_unique; try assumption. intros [n k]. rewrite K1, L1. split; intros [Hd Hc]; split; try exact Hc; eapply deserves_perm; [exact Hall|exact Hd|symmetry; exact Hall|exact Hd]. }
  subst ks'. rewrite (listed_forms _ _ _ _ _ _ _ K5), (listed_forms _ _ _ _ _ _ _ L5), (listed_values _ _ _ _ _ _ _ K5), (listed_values _ _ _ _ _ _ _ L5). split; [|reflexivity].
  assert (least = least') as ->; [|reflexivity]. destruct K4 as [A1 A2], L4 as [B1 B2]. rewrite Forall_forall in A2, B2. specialize (A2 _ B1). specialize (B2 _ A1). lia.
Qed.

(** ** Values *)
Lemma total_bound l : Forall (fun x => (0 <= x)%Z) l -> forall x, In x l -> (x <= total_of l)%Z.
Proof.
  intros H. induction H as [|y l Hy H IH]; intros x Hx; [destruct Hx|]. change (total_of (y :: l)) with (y + total_of l)%Z.
  assert (0 <= total_of l)%Z by (clear - H; induction H; unfold total_of in *; cbn [fold_right] in *; lia).
  destruct Hx as [<-|Hx]; [lia|]. specialize (IH x Hx). lia.
Qed.

Definition falling (value : Z -> Z -> Z -> N) : Prop := forall total least a b,
  (0 < least <= a)%Z -> (a <= b <= total)%Z -> (least < total)%Z -> (value total least b <= value total least a <= 1000000)%N.
Lemma total_two l m : Forall (fun x => (1 <= x)%Z) l -> 2 <= length l -> In m l -> (m < total_of l)%Z.
Proof.
  intros H Hl Hm. destruct l as [|a [|b l]]; cbn [length] in Hl; try lia. inversion H as [|? ? Ha H']; inversion H' as [|? ? Hb H'']; subst.
  assert (Hn : Forall (fun x => (0 <= x)%Z) l) by (eapply Forall_impl; [|exact H'']; cbn beta; lia). 
  assert (Hz : (0 <= total_of l)%Z) by (clear - Hn; induction Hn; unfold total_of in *; cbn [fold_right] in *; lia).
  change (total_of (a :: b :: l)) with (a + (b + total_of l))%Z. destruct Hm as [<-|[<-|Hm]]; try lia. pose proof (total_bound l Hn m Hm). lia.
Qed.
Lemma create_values p value cutoff w t b f1 f2 f3 : positive w -> positive t -> positive b -> (1 <= cutoff)%Z -> falling value ->
  create_wordlist p value cutoff w t b = Ok (f1, f2, f3) ->
  StronglySorted N.le (map fst f3) /\ Forall (fun v => (v <= 1000000)%N) (map fst f3).
Proof.
  intros Pw Pt Pb Hc Hv H. pose proof (create_listed _ _ _ _ _ _ _ _ _ Pw Pt Pb H) as (ks & least & K1 & K2 & K3 & K4 & [K5 K6] & K7).
  rewrite (listed_values _ _ _ _ _ _ _ K7).
  assert (Hp : Forall (fun x => (1 <= x)%Z) (map fst ks)).
  { apply Forall_forall. intros x Hx. apply in_map_iff in Hx. destruct Hx as ([n k] & <- & Hi). apply K1 in Hi. cbn [fst]. lia. }
  assert (Hb : forall e, In e ks -> (0 < least <= fst e)%Z /\ (fst e < total_of (map fst ks))%Z).
  { intros e He. rewrite Forall_forall in K6, Hp. specialize (K6 _ (in_map fst _ _ He)). specialize (Hp _ K5). split; [lia|].
    apply total_two; [|rewrite map_length; exact K4|apply in_map; exact He]. apply Forall_forall. intros x Hx. apply in_map_iff in Hx. destruct Hx as ([n k] & <- & Hi). apply K1 in Hi. cbn [fst]. lia. }
  clear K4 K5 K6 K7 K1 K2 Hp H. generalize dependent (total_of (map fst ks)). intros T Hb. split.
  - induction K3 as [|e l S IH F]; [constructor|]. cbn [map]. constructor; [apply IH; intros x Hx; apply Hb; right; exact Hx|].
    apply Forall_forall. intros y Hy. apply in_map_iff in Hy. destruct Hy as (x & <- & Hx). rewrite Forall_forall in F. specialize (F x Hx).
    destruct (Hb e (or_introl eq_refl)) as [E1 E2]. destruct (Hb x (or_intror Hx)) as [X1 X2]. 
    apply (Hv T least (fst x) (fst e)); [lia| |lia]. destruct F as [F|[F _]]; lia.
  - apply Forall_forall. intros y Hy. apply in_map_iff in Hy. destruct Hy as (x & <- & Hx). destruct (Hb x Hx) as [X1 X2]. apply (Hv T least (fst x) (fst x)); lia.
Qed.

(** ** Frequent words *)
Lemma worth_nonneg p e : (1 <= fst e)%Z -> (0 <= worth p e)%Z.
Proof.
  destruct e as [c w]. cbn [fst]. unfold worth. intros H. destruct (text_eqb _ w); [lia|]. destruct (text_eqb _ _); [pose proof (Z.div_pos (3 * c) 2 ltac:(lia) ltac:(lia)); lia|].
  destruct (Nat.leb _ _); [lia|]. destruct (Nat.leb _ _); lia.
Qed.
Lemma worth_large p c w : (255 <= c)%Z -> (50 <= worth p (c, w))%Z.
Proof.
  intros H. unfold worth. destruct (text_eqb _ w); [lia|].
  destruct (text_eqb _ _); [pose proof (Z.div_le_mono (3 * 255) (3 * c) 2 ltac:(lia) ltac:(lia)) as Hd; change (3 * 255 / 2)%Z with 382%Z in Hd; lia|].
  destruct (Nat.leb _ _); [pose proof (Z.div_le_mono 255 c 5 ltac:(lia) ltac:(lia)) as Hd; change (255 / 5)%Z with 51%Z in Hd; lia|].
  destruct (Nat.leb _ _); [pose proof (Z.div_le_mono 255 c 2 ltac:(lia) ltac:(lia)) as Hd; change (255 / 2)%Z with 127%Z in Hd; lia|lia].
Qed.
Definition swap (e : text * Z) : Z * text := (snd e, fst e).
Lemma one_use p d k f : NoDup (map fst d) -> (forall w, In w (map fst d) -> canonicalize p w = k -> w = f) -> (0 < count_form p k d)%Z ->
  In (f, count_form p k d) d /\ canonicalize p f = k.
Proof.
  unfold count_form. induction d as [|[x n] d IH]; intros Hn Hf Hc; [cbn in Hc; lia|]. cbn [map fst] in Hn. inversion Hn as [|? ? N1 N2]; subst. cbn [filter fst] in *.
  unfold has_form in *. destruct (teq_spec (canonicalize p x) k) as [E|E].
  - assert (x = f) as -> by (apply Hf; [left; reflexivity|exact E]). replace (filter _ d) with (@nil (text * Z)) in *.
    { cbn [map snd total_of fold_right]. rewrite Z.add_0_r. split; [left; reflexivity|exact E]. }
    { symmetry. clear - Hf N1. assert (Hg : forall y, In y d -> text_eqb (canonicalize p (fst y)) k = false).
      { intros y Hy. apply teq_no. intros Ey. apply N1. rewrite <- (Hf (fst y) (or_intror (in_map fst _ _ Hy)) Ey). apply in_map. exact Hy. }
      clear Hf N1. induction d as [|y d IH]; [reflexivity|]. cbn [filter]. rewrite (Hg y (or_introl eq_refl)). apply IH. intros z Hz. apply Hg. right. exact Hz. }
  - destruct IH as [H1 H2]; [exact N2|intros w Hw; apply Hf; right; exact Hw|exact Hc|]. split; [right; exact H1|exact H2].
Qed.
Lemma frequent_listed p value cutoff w t b f1 f2 f3 k c f : positive w -> positive t -> positive b ->
  create_wordlist p value cutoff w t b = Ok (f1, f2, f3) -> In (c, f) (w ++ tripled t ++ b) -> f <> [] -> canonicalize p f = k ->
  k <> [] -> k <> str "aeo" -> (cutoff <= worth p (c, f))%Z -> In k (map (fun line => canonicalize p (snd line)) f3).
Proof.
  intros Pw Pt Pb H Hi Hf Hk K1 K2 Hc. pose proof (create_listed _ _ _ _ _ _ _ _ _ Pw Pt Pb H) as (ks & least & Hks & _ & _ & _ & _ & K7).
  rewrite (listed_forms _ _ _ _ _ _ _ K7). set (all := w ++ tripled t ++ b) in *.
  assert (Pall : positive all).
  { unfold all, positive. apply Forall_app. split; [exact Pw|]. apply Forall_app. split; [|exact Pb]. apply Forall_map. eapply Forall_impl; [|exact Pt]. intros e He. cbn [fst] in *. lia. }
  assert (Hu : In (c, f) (uses p k all)) by (apply filter_In; split; [exact Hi|]; cbn [snd]; destruct f; [congruence|]; apply teq; exact Hk).
  apply in_map_iff. exists (total_of (map (worth p) (uses p k all)), k). split; [reflexivity|]. apply Hks. split.
  - repeat split; try assumption. intros E. rewrite E in Hu. destruct Hu.
  - etransitivity; [exact Hc|]. apply total_bound; [|apply in_map; exact Hu]. apply Forall_map, Forall_forall. intros e He. apply worth_nonneg.
    unfold positive in Pall. rewrite Forall_forall in Pall. apply Pall. apply filter_In in He. apply He.
Qed.
Lemma set_all {A} (P : A -> Prop) (d : dict A) k v : P v -> Forall (fun e => P (snd e)) d -> Forall (fun e => P (snd e)) (set d k v).
Proof.
  intros Hv Hd. induction Hd as [|[x y] d Hx Hd IH]; cbn [set]; [constructor; [exact Hv|constructor]|]. destruct (text_eqb x k); constructor; assumption.
Qed.
Definition good (d : wordlist) : Prop := Forall (fun e => (1 <= fst (snd e))%Z) d.
Lemma enter_good p d w n : (1 <= n)%Z -> good d -> good (enter p d w n).
Proof.
  intros Hn Hd. unfold enter. destruct (strip_word p w) as [|c x]; [exact Hd|]. destruct (get d _) as [[o s]|]; apply (set_all (fun v : Z * text => (1 <= fst v)%Z)); try assumption; cbn [fst]; lia.
Qed.
Lemma entry_good p d e : good d -> good (enter_entry p d e).
Proof.
  intros Hd. unfold enter_entry. assert (H0 : good (enter p d (fst e) 1000)) by (apply enter_good; [lia|exact Hd]). revert H0. generalize (enter p d (fst e) 1000).
  induction (snd e) as [|f l IH]; intros d0 H0; [exact H0|]. cbn [fold_left]. apply IH. destruct (_ && _); [apply enter_good; [lia|]|]; exact H0.
Qed.
Lemma dump_positive p l : positive (dump (fold_left (enter_entry p) l [])).
Proof.
  assert (Hg : good (fold_left (enter_entry p) l [])).
  { assert (H : forall d, good d -> good (fold_left (enter_entry p) l d)) by (induction l as [|e l IH]; intros d Hd; [exact Hd|]; cbn [fold_left]; apply IH, entry_good, Hd). apply H. constructor. }
  unfold dump, positive. apply Forall_map. eapply Permutation_Forall; [symmetry; apply sort_perm|]. exact Hg.
Qed.
Lemma main_frequent p value wikt files f1 f2 f3 k : sane p -> folded p ->
  main_lists p value wikt files = Ok (f1, f2, f3) -> k <> [] -> canonicalize p k = k -> k <> str "aeo" ->
  (255 <= number_of p k (flat_map (body_words p) (concat files)) \/ 85 <= number_of p k (flat_map (title_words p) (concat files)))%Z ->
  exists a line b, f3 = a ++ line :: b /\ canonicalize p (snd line) = k /\ forall x, In x (a ++ b) -> canonicalize p (snd x) <> k.
Proof.
  intros Hs Hf H Hk Hc Ha Hn. unfold main_lists in H. destruct (word_frequency p (map (extract p) files)) as [title body] eqn:E.
  destruct (files_counted p Hs Hf files title body E) as (C1 & C2 & C3 & C4 & C5). destruct (C1 k (conj Hk Hc)) as [Ct Cb]. destruct (C2 k (conj Hk Hc)) as [f Cf].
  apply Forall_app in C5. destruct C5 as [Pt Pb]. change (fun e : text * Z => (snd e, fst e)) with swap in H.
  assert (Pt' : positive (map swap title)) by (apply Forall_map; exact Pt). assert (Pb' : positive (map swap body)) by (apply Forall_map; exact Pb).
  assert (Hf0 : canonicalize p [] = []) by (rewrite canonical_ascii by (assumption || constructor); reflexivity).
  assert (Hin : In k (map (fun line => canonicalize p (snd line)) f3)).
  { destruct Hn as [Hn|Hn].
    - destruct (one_use p body k f C4) as [U1 U2]; [intros w Hw; apply Cf; apply in_app_iff; right; exact Hw|lia|].
      eapply (frequent_listed p value 50 (dump (fold_left (enter_entry p) wikt [])) (map swap title) (map swap body) f1 f2 f3 k (count_form p k body) f); try eassumption.
      + apply dump_positive.
      + apply in_app_iff. right. apply in_app_iff. right. apply in_map_iff. exists (f, count_form p k body). split; [reflexivity|exact U1].
      + intros ->. congruence.
      + apply worth_large. lia.
    - destruct (one_use p title k f C3) as [U1 U2]; [intros w Hw; apply Cf; apply in_app_iff; left; exact Hw|lia|].
      eapply (frequent_listed p value 50 (dump (fold_left (enter_entry p) wikt [])) (map swap title) (map swap body) f1 f2 f3 k (count_form p k title * 3)%Z f); try eassumption.
      + apply dump_positive.
      + apply in_app_iff. right. apply in_app_iff. left. unfold tripled. rewrite map_map. apply in_map_iff. exists (f, count_form p k title). split; [reflexivity|exact U1].
      + intros ->. congruence.
      + apply worth_large. lia. }
  pose proof (create_listed _ _ _ _ _ _ _ _ _ (dump_positive p wikt) Pt' Pb' H) as (ks & least & _ & K2 & _ & _ & _ & K7).
  rewrite <- (listed_forms _ _ _ _ _ _ _ K7) in K2. clear - Hin K2. apply in_map_iff in Hin. destruct Hin as (line & Hl & Hi). apply in_split in Hi. destruct Hi as (a & b & ->).
  exists a, line, b. split; [reflexivity|]. split; [exact Hl|]. intros x Hx Hxk. rewrite map_app in K2. cbn [map] in K2. apply NoDup_remove_2 in K2. apply K2. rewrite Hl, <- Hxk, <- map_app. apply (in_map (fun line => canonicalize p (snd line))). exact Hx.
Qed.

(** ** Noodle reads the list *)
Lemma parse_digits_fold d : forall acc, digits d -> (fold_left (fun v c => (v * 10 + (c - 48))%N) d acc < 2 ^ 32)%N ->
  parse_digits d acc = Some (fold_left (fun v c => (v * 10 + (c - 48))%N) d acc).
Proof.
  assert (Hge : forall d acc, (acc <= fold_left (fun v c => (v * 10 + (c - 48))%N) d acc)%N).
  { clear. induction d as [|c d IH]; intros acc; cbn [fold_left]; [lia|]. specialize (IH (acc * 10 + (c - 48))%N). lia. }
  induction d as [|c d IH]; intros acc Hd Hl; [reflexivity|]. inversion Hd as [|? ? Hc Hd']; subst. cbn [parse_digits fold_left] in *. rewrite Hc.
  pose proof (Hge d (acc * 10 + (c - 48))%N) as Hx. destruct (N.ltb_spec (acc * 10 + (c - 48)) (2 ^ 32)) as [_|Hno]; [apply IH; assumption|]. exfalso. exact (N.lt_irrefl _ (N.le_lt_trans _ _ _ (N.le_trans _ _ _ Hno Hx) Hl)).
Qed.
Lemma split_digits d t : digits d -> split_once 9 (d ++ 9%N :: t) = Some (d, t).
Proof.
  intros H. induction H as [|c d Hc H IH]; [reflexivity|]. cbn [split_once app]. unfold is_digit, in_range in Hc. destruct (N.eqb_spec c 9) as [->|_]; [discriminate|]. rewrite IH. reflexivity.
Qed.
Lemma parse_written e : (fst e < 2 ^ 32)%N -> parse_line (write_line e) = (snd e, fst e).
Proof.
  destruct e as [n t]. cbn [fst snd]. intros Hn. unfold write_line. cbn [fst snd]. change (digits_from (S (N.to_nat (N.size n))) n []) with (write_number n).
  destruct (write_number_first n) as (c & d & E & Hd & Hv & _). rewrite E. unfold parse_line. rewrite split_digits by exact Hd.
  assert (parse_u32 (c :: d) = Some n) as ->; [|reflexivity]. unfold parse_u32. inversion Hd as [|? ? Hc _]; subst. unfold is_digit, in_range in Hc. destruct (N.eqb_spec c 43) as [->|_]; [discriminate|].
  unfold decimal in *. apply parse_digits_fold; [exact Hd|exact Hn].
Qed.
Definition long_enough (u : unicode) (e : N * text) : bool := (2 <? length (word_chars u (snd e))) || text_eqb (snd e) (str "I") || text_eqb (snd e) (str "a").
Lemma entries_map u : forall lines k ws, entries u k lines ws -> map (fun w => (w_text w, w_score w)) ws = map parse_line lines /\ Forall (fun w => w_chars w = word_chars u (w_text w)) ws.
Proof.
  intros lines k ws H. induction H as [k|k line lines w ws (t & _ & H1 & H2 & H3 & _) H [IH1 IH2]]; [split; constructor|]. cbn [map]. rewrite IH1, H1, H2. split; [f_equal; destruct (parse_line line); reflexivity|]. constructor; [rewrite H3, H1; reflexivity|exact IH2].
Qed.
Lemma load_written u f : Forall (fun e => (fst e < 2 ^ 32)%N /\ existsb is_digit (snd e) = false) f ->
  Permutation (map (fun w => (w_score w, w_text w)) (load_wordlist u (map write_line f))) (filter (long_enough u) f) /\
  Forall (fun w => w_chars w = word_chars u (w_text w)) (load_wordlist u (map write_line f)).
Proof.
  intros Hf. destruct (load_wordlist_lemma u (map write_line f)) as (ws & He & Hp & _). destruct (entries_map _ _ _ _ He) as [E1 E2].
  split; [|eapply Permutation_Forall; [symmetry; exact Hp|exact E2]].
  etransitivity; [apply Permutation_map; exact Hp|]. match goal with |- Permutation ?x ?y => enough (x = y) as -> by reflexivity end.
  transitivity (map (fun x : text * N => (snd x, fst x)) (map (fun w => (w_text w, w_score w)) ws)); [rewrite map_map; reflexivity|]. rewrite E1. clear - Hf.
  induction Hf as [|e f [H1 H2] Hf IH]; [reflexivity|]. cbn [map filter]. assert (admissible u (write_line e) = long_enough u e) as -> by (unfold admissible, long_enough; rewrite parse_written by exact H1; cbn [fst]; destruct e as [n x]; cbn [snd] in *; change (list N) with text in *; rewrite H2; apply Bool.andb_true_r).
  destruct (long_enough u e); [|exact IH]. cbn [map]. rewrite parse_written by exact H1. cbn [fst snd]. rewrite IH. destruct e; reflexivity.
Qed.
Lemma form_no_digit p w : canonicalize p w <> [] -> existsb is_digit w = false.
Proof. unfold canonicalize. destruct (existsb is_digit w); congruence. Qed.
Lemma small_char c : char_of (small c) = char_of c.
Proof.
  unfold small. destruct (in_range 65 90 c) eqn:E; [|reflexivity]. unfold char_of. rewrite E.
  assert (in_range 65 90 (c + 32) = false) as -> by (unfold in_range in *; lia). assert (in_range 97 122 (c + 32) = true) as -> by (unfold in_range in *; lia). f_equal. lia.
Qed.
Lemma other_char c : ~ (65 <= c <= 90)%N -> is_lower c = false -> 26 <= char_of c.
Proof.
  unfold is_lower, char_of, in_range. intros H1 H2. destruct (N.leb_spec 65 c), (N.leb_spec c 90), (N.leb_spec 97 c), (N.leb_spec c 122); cbn [andb] in *; try lia; try discriminate;
    destruct (_ || _); unfold WORD_END, PUNCTUATION; lia.
Qed.
Lemma form_symbols p u w : sane p -> ascii_ok u -> ascii w -> canonicalize p w <> [] ->
  exists a b, word_chars u w = a ++ map char_of (canonicalize p w) ++ b ++ [WORD_END] /\ Forall (fun c => 26 <= c) a /\ Forall (fun c => 26 <= c) b.
Proof.
  intros Hs Hu Ha Hk. rewrite word_chars_ascii by assumption. pose proof (form_no_digit p w Hk) as Hd. rewrite (canonical_ascii p w Hs Ha), Hd in *.
  destruct (trim_spec (fun c => negb (is_lower c)) (map small w)) as [[E _]|(a & b & E & F1 & F2 & _)]; [congruence|].
  exists (map char_of a), (map char_of b). 
  assert (Hno : forall c, In c (map small w) -> ~ (65 <= c <= 90)%N).
  { intros c Hc. apply in_map_iff in Hc. destruct Hc as (x & <- & _). unfold small, in_range. destruct (N.leb_spec 65 x), (N.leb_spec x 90); cbn [andb]; lia. }
  split; [|split].
  - transitivity (map char_of (map small w) ++ [WORD_END]); [rewrite map_map; f_equal; apply map_ext; intros c; symmetry; apply small_char|].
    rewrite E at 1. rewrite !map_app, <- !app_assoc. reflexivity.
  - apply Forall_forall. intros x Hx. apply in_map_iff in Hx. destruct Hx as (c & <- & Hc). rewrite Forall_forall in F1. specialize (F1 c Hc). apply other_char; [apply Hno; rewrite E; apply in_app_iff; left; exact Hc|destruct (is_lower c); [discriminate|reflexivity]].
  - apply Forall_forall. intros x Hx. apply in_map_iff in Hx. destruct Hx as (c & <- & Hc). rewrite Forall_forall in F2. specialize (F2 c Hc). apply other_char; [apply Hno; rewrite E; apply in_app_iff; right; apply in_app_iff; right; exact Hc|destruct (is_lower c); [discriminate|reflexivity]].
Qed.

(** ** Bodies *)
Lemma app_longer {A} (a : list A) : forall b x y, a ++ x = b ++ y -> length a <= length b -> exists z, b = a ++ z /\ x = z ++ y.
Proof.
  induction a as [|c a IH]; intros b x y H Hl; [exists b; split; [reflexivity|exact H]|]. destruct b as [|d b]; [cbn [length] in Hl; lia|].
  cbn [app] in H. injection H as -> H. destruct (IH b x y H ltac:(cbn [length] in Hl; lia)) as (z & -> & ->). exists z. split; reflexivity.
Qed.
Lemma before_some x t : forall a b, before x t = Some (a, b) -> t = a ++ x ++ b /\ ~ In 10%N a /\ forall a' b', t = a' ++ x ++ b' -> length a <= length a'.
Proof.
  induction t as [|c t IH]; intros a b H; cbn [before] in H.
  - destruct (starts x []) eqn:E; [|discriminate]. injection H as <- <-. apply starts_iff in E. destruct E as (r & E). split; [|split; [intros []|intros; cbn [length]; lia]].
    destruct x; [reflexivity|discriminate].
  - destruct (starts x (c :: t)) eqn:E.
    + injection H as <- <-. apply starts_iff in E. destruct E as (r & E). split; [|split; [intros []|intros; cbn [length]; lia]]. rewrite E. cbn [app]. f_equal. rewrite skipn_app, skipn_all, Nat.sub_diag. reflexivity.
    + destruct (N.eqb_spec c 10) as [|Hc]; [discriminate|]. destruct (before x t) as [[a0 b0]|] eqn:Eb; [|discriminate]. injection H as <- <-. destruct (IH _ _ eq_refl) as (H1 & H2 & H3).
      split; [cbn [app]; f_equal; exact H1|]. split; [intros [Hx|Hx]; [congruence|exact (H2 Hx)]|].
      intros a' b' Ha. destruct a' as [|d a']; [exfalso; assert (starts x (c :: t) = true) by (apply starts_iff; exists b'; exact Ha); congruence|]. cbn [app] in Ha. injection Ha as -> Ha. specialize (H3 _ _ Ha). cbn [length]. lia.
Qed.
Lemma before_none x t : before x t = None -> forall a b, t = a ++ x ++ b -> In 10%N a.
Proof.
  induction t as [|c t IH]; intros H a b E; cbn [before] in H.
  - destruct (starts x []) eqn:Es; [discriminate|]. assert (starts x [] = true); [|congruence]. destruct a; [|discriminate]. destruct x; [reflexivity|discriminate].
  - destruct (starts x (c :: t)) eqn:Es; [discriminate|]. destruct a as [|d a]; [exfalso; assert (starts x (c :: t) = true) by (apply starts_iff; exists b; exact E); congruence|].
    cbn [app] in E. injection E as <- E. destruct (N.eqb_spec c 10) as [->|]; [left; reflexivity|]. right. destruct (before x t) as [[? ?]|]; [discriminate|]. eapply IH; [reflexivity|exact E].
Qed.
Lemma strip_body_spec body : cut_at body (strip_body body) \/
  strip_body body = body /\ forall s, ends_before_second body s -> In 10%N s.
Proof.
  unfold strip_body. change (str " Retrieved ") with retrieved. assert (Hr : ~ In 10%N retrieved) by (cbv; intuition congruence).
  destruct (before retrieved body) as [[a rest]|] eqn:E1.
  - apply before_some in E1. destruct E1 as (A1 & A2 & A3).
    assert (Hcut : forall s, ends_before_second body s -> exists x c, s = (a ++ retrieved) ++ x /\ rest = x ++ retrieved ++ c).
    { intros s (a' & b' & c' & E & ->). specialize (A3 _ _ E). rewrite A1 in E. replace (a ++ retrieved ++ rest) with ((a ++ retrieved) ++ rest) in E by (symmetry; apply app_assoc).
      replace (a' ++ retrieved ++ b' ++ retrieved ++ c') with ((a' ++ retrieved ++ b') ++ retrieved ++ c') in E by (rewrite <- !app_assoc; reflexivity).
      destruct (app_longer _ _ _ _ E) as (z & Z1 & Z2); [rewrite !app_length; lia|]. exists z, c'. split; assumption. }
    destruct (before retrieved rest) as [[b c]|] eqn:E2.
    + apply before_some in E2. destruct E2 as (B1 & B2 & B3). left. split; [exists a, b, c; split; [rewrite A1, B1; reflexivity|reflexivity]|]. split.
      * rewrite !in_app_iff. tauto.
      * intros s Hs. destruct (Hcut s Hs) as (x & c' & -> & Hx). specialize (B3 _ _ Hx). rewrite !app_length. lia.
    + right. split; [reflexivity|]. intros s Hs. destruct (Hcut s Hs) as (x & c' & -> & Hx). apply in_app_iff. right. eapply before_none; eassumption.
  - right. split; [reflexivity|]. intros s (a & b & c & E & ->). apply in_app_iff. left. eapply before_none; [exact E1|exact E].
Qed.

(** ** Words of the titles and bodies *)
Lemma split_words_spec p t : forall cur, Forall (fun c => p_space p c = false) cur -> Forall (fun w => w <> [] /\ Forall (fun c => p_space p c = false) w) (split_words p t cur).
Proof.
  induction t as [|c t IH]; intros cur Hc; cbn [split_words].
  - destruct cur as [|d cur]; [constructor|]. constructor; [|constructor]. split; [discriminate|exact Hc].
  - destruct (p_space p c) eqn:E.
    + destruct cur as [|d cur]; [apply IH; constructor|]. constructor; [split; [discriminate|exact Hc]|apply IH; constructor].
    + apply IH. apply Forall_app. split; [exact Hc|]. constructor; [exact E|constructor].
Qed.
Lemma strip_word_all p w : sane p -> Forall (fun c => p_space p c = false) w -> strip_word p w = [] <-> ~ exists g, kept p w g.
Proof.
  intros Hs Hw. split.
  - intros E (g & Hg). assert (g <> []) by (destruct Hg as ((a & b & _ & _ & _ & (c & t & -> & _) & _) & _); discriminate).
    rewrite (proj2 (strip_word_kept p w g Hs Hw H) Hg) in E. congruence.
  - intros H. destruct (strip_word p w) as [|c g] eqn:E; [reflexivity|]. exfalso. apply H. exists (c :: g). apply strip_word_kept; try assumption. discriminate.
Qed.
Lemma kept_no_dash p w g : sane p -> kept p w g -> ~ In 8211%N g.
Proof.
  intros Hs (_ & _ & Hg & _) Hi. destruct (Hg _ Hi) as [H|H]; [rewrite (s_dash p Hs) in H; discriminate|]. cbv in H. intuition discriminate.
Qed.

(** ** Canonical forms *)
Lemma lower_range c : is_lower c = true <-> (97 <= c <= 122)%N.
Proof. unfold is_lower, in_range. rewrite andb_true_iff, !N.leb_le. reflexivity. Qed.
Lemma digit_free w : existsb is_digit w = false <-> Forall (fun c => ~ (48 <= c <= 57)%N) w.
Proof.
  rewrite Forall_forall. assert (D : forall c, is_digit c = true <-> (48 <= c <= 57)%N) by (intros c; unfold is_digit, in_range; rewrite andb_true_iff, !N.leb_le; reflexivity). split.
  - intros H c I R. apply D in R. assert (existsb is_digit w = true) by (apply existsb_exists; eauto). congruence.
  - intros H. destruct (existsb is_digit w) eqn:E; [| reflexivity]. apply existsb_exists in E. destruct E as (c & I & R). apply D in R. destruct (H c I R).
Qed.
Lemma canonical_forms p w : canonicalize p w <> [] ->
  (exists c t, canonicalize p w = c :: t /\ (97 <= c <= 122)%N) /\ (exists t c, canonicalize p w = t ++ [c] /\ (97 <= c <= 122)%N) /\
  Forall (fun c => (c < 128)%N) (canonicalize p w) /\ Forall (fun c => ~ (48 <= c <= 57)%N) w.
Proof.
  intros H. destruct (canonical_shape p w H) as [Ha [(c & t & E1 & E2) (t' & c' & E3 & E4)]].
  split; [exists c, t; split; [exact E1|]; apply lower_range; destruct (is_lower c); [reflexivity|discriminate]|]. split; [exists t', c'; split; [exact E3|]; apply lower_range; destruct (is_lower c'); [reflexivity|discriminate]|].
  split; [exact Ha|]. apply digit_free, (form_no_digit p). exact H.
Qed.
Lemma canonical_of_ascii p w : sane p -> Forall (fun c => (c < 128)%N) w -> Forall (fun c => ~ (48 <= c <= 57)%N) w ->
  exists a b, map (fun c => if N.leb 65 c && N.leb c 90 then (c + 32)%N else c) w = a ++ canonicalize p w ++ b /\
    Forall (fun c => ~ (97 <= c <= 122)%N) a /\ Forall (fun c => ~ (97 <= c <= 122)%N) b.
Proof.
  intros Hs Ha Hd. apply digit_free in Hd. rewrite (canonical_ascii p w Hs Ha), Hd. change (fun c => if N.leb 65 c && N.leb c 90 then (c + 32)%N else c) with small.
  assert (Hneg : forall l, Forall (fun c => negb (is_lower c) = true) l -> Forall (fun c => ~ (97 <= c <= 122)%N) l) by (intros l Hl; eapply Forall_impl; [|exact Hl]; intros x Hx; cbn beta in Hx; intros R; apply lower_range in R; rewrite R in Hx; discriminate).
  destruct (trim_spec (fun c => negb (is_lower c)) (map small w)) as [[E F]|(a & b & E & F1 & F2 & _)].
  - rewrite E. exists (map small w), []. rewrite app_nil_r. repeat split; [apply Hneg; exact F|constructor].
  - exists a, b. repeat split; auto.
Qed.

(** ** Tables for examples *)
Lemma small_sane_lemma : sane small_python.
Proof.
  constructor.
  - intros c Hc. cbn [p_word small_python]. destruct (N.eqb_spec c 233); [lia|]. destruct (N.eqb_spec c 178); [lia|]. rewrite !Bool.orb_false_r, !Bool.orb_true_iff, letter_in, N.eqb_eq, in_app_iff.
    split.
    + intros [[H | H] | H]; [left; exact H | right | right; subst c; cbn; tauto]. unfold is_digit, in_range in H. apply andb_prop in H. destruct H as [H1 H2]. apply N.leb_le in H1, H2.
      assert (c = 48 \/ c = 49 \/ c = 50 \/ c = 51 \/ c = 52 \/ c = 53 \/ c = 54 \/ c = 55 \/ c = 56 \/ c = 57)%N as K by lia. repeat (destruct K as [-> | K]; [cbn; tauto |]). subst c. cbn. tauto.
    + intros [H | H]; [left; left; exact H |]. cbn in H. repeat (destruct H as [<- | H]; [first [left; right; reflexivity | right; reflexivity] |]). contradiction.
  - reflexivity.
  - reflexivity.
  - intros c Hc. assert (H3 : c = 32%N \/ c = 9%N \/ c = 10%N) by (unfold p_space, small_python in Hc; lia). destruct H3 as [H3|[H3|H3]]; rewrite H3; reflexivity.
  - intros t Ht. cbn [p_nfkd small_python]. induction Ht as [|c t Hc Ht IH]; [reflexivity|]. cbn [flat_map]. destruct (N.eqb_spec c 233); [lia|]. destruct (N.eqb_spec c 178); [lia|]. cbn [app]. rewrite IH. reflexivity.
  - intros c Hc. cbn [p_combining small_python]. destruct (N.eqb_spec c 769); [lia|reflexivity].
  - reflexivity.
Qed.
Lemma small_folded_lemma : folded small_python.
Proof. intros c x Hx. cbn [p_casefold small_python In] in Hx. destruct Hx as [Hx|[]]. subst x. unfold in_range. destruct (N.leb_spec 65 c), (N.leb_spec c 90); cbn [andb]; lia. Qed.
Definition small_value (total least n : Z) : N := Z.to_N (1000000 * (total - n) / (total - least)).
Lemma small_falling_lemma : falling small_value.
Proof.
  intros total least a b Ha Hb Hl. unfold small_value.
  assert (H1 : (1000000 * (total - b) / (total - least) <= 1000000 * (total - a) / (total - least))%Z) by (apply Z.div_le_mono; lia).
  assert (H2 : (1000000 * (total - a) / (total - least) <= 1000000)%Z) by (apply Z.div_le_upper_bound; nia).
  assert (H0 : (0 <= 1000000 * (total - b) / (total - least))%Z) by (apply Z.div_pos; lia). lia.
Qed.

(** ** Forms of the theorems *)
Lemma words_kept p w : sane p -> Forall (fun c => p_space p c = false) w ->
  (forall g, g <> [] -> (strip_word p w = g <-> kept p w g)) /\ (strip_word p w = [] <-> ~ exists g, kept p w g).
Proof. intros Hs Hw. split; [intros g Hg; apply strip_word_kept; assumption|apply strip_word_all; assumption]. Qed.
Lemma texts_cut p t : Forall (fun w => w <> [] /\ Forall (fun c => p_space p c = false) w) (split_words p t []).
Proof. apply split_words_spec. constructor. Qed.
Lemma dash_trim p a b : Forall (fun c => p_word p c = true) (a ++ b) -> a <> [] -> b <> [] ->
  trim (fun c => negb (p_word p c)) (a ++ 8211%N :: b) = a ++ 8211%N :: b.
Proof.
  intros Hw Ha Hb. apply trim_bare. apply Forall_app in Hw. destruct Hw as [Wa Wb]. split.
  - destruct a as [|c a]; [congruence|]. inversion Wa; subst. exists c, (a ++ 8211%N :: b). split; [reflexivity|]. rewrite H1. reflexivity.
  - destruct (exists_last Hb) as (b' & c & ->). apply Forall_app in Wb. destruct Wb as [_ Wb]. inversion Wb; subst. exists (a ++ 8211%N :: b'), c. split; [rewrite <- app_assoc; reflexivity|]. rewrite H1. reflexivity.
Qed.
Lemma dash_core p a b : sane p -> Forall (fun c => p_word p c = true) (a ++ b) -> a <> [] -> b <> [] -> core p (a ++ 8211%N :: b) = None.
Proof.
  intros Hs Hw Ha Hb. unfold core. rewrite dash_trim by assumption. destruct (a ++ 8211%N :: b) eqn:E; [reflexivity|]. rewrite <- E.
  destruct (forallb (inner p) (a ++ 8211%N :: b)) eqn:Ef; [|reflexivity]. rewrite forallb_forall in Ef. specialize (Ef 8211%N (in_elt _ _ _)). unfold inner in Ef. rewrite (s_dash p Hs) in Ef. discriminate.
Qed.
Lemma dash_dropped p a b : sane p -> Forall (fun c => p_word p c = true) (a ++ b) -> a <> [] -> b <> [] -> strip_word p (a ++ 8211%N :: b) = [].
Proof.
  intros Hs Hw Ha Hb. unfold strip_word. destruct (negb _); [reflexivity|]. rewrite dash_core by assumption. reflexivity.
Qed.
Lemma lists_readable p value cutoff w t b f1 f2 f3 : positive w -> positive t -> positive b -> (1 <= cutoff)%Z -> falling value ->
  create_wordlist p value cutoff w t b = Ok (f1, f2, f3) ->
  Forall (fun e => (fst e < 2 ^ 32)%N /\ existsb is_digit (snd e) = false) f3.
Proof.
  intros Pw Pt Pb Hc Hv H. destruct (create_values _ _ _ _ _ _ _ _ _ Pw Pt Pb Hc Hv H) as [_ Hb].
  destruct (create_listed _ _ _ _ _ _ _ _ _ Pw Pt Pb H) as (ks & least & K1 & _ & _ & _ & _ & K7). clear H.
  assert (Hd : Forall (fun e => existsb is_digit (snd e) = false) f3).
  { assert (K : forall e, In e ks -> snd e <> []) by (intros [n k] He; apply K1 in He; destruct He as [[He _] _]; exact He). clear K1 Hb. revert K7. generalize (total_of (map fst ks)). intros T K7.
    induction K7 as [|e l ks' f [_ Hl] K7 IH]; [constructor|]. constructor; [|apply IH; intros x Hx; apply K; right; exact Hx].
    destruct (last_in _ _ _ _ Hl) as (c & _ & _ & E). apply (form_no_digit p). intros E'. apply (K e (or_introl eq_refl)). etransitivity; [symmetry; exact E|exact E']. }
  rewrite Forall_forall in *. intros e He. split; [|apply Hd; exact He]. eapply N.le_lt_trans; [apply Hb; apply in_map; exact He|]. reflexivity.
Qed.

(** ** Cutting at white space *)
Lemma split_run p w : Forall (fun c => p_space p c = false) w -> forall t cur, split_words p (w ++ t) cur = split_words p t (cur ++ w).
Proof.
  intros H. induction H as [|c w Hc H IH]; intros t cur; [rewrite app_nil_r; reflexivity|]. cbn [app split_words]. rewrite Hc, IH, <- app_assoc. reflexivity.
Qed.
Lemma cut_split p t ws : cut_into p t ws -> split_words p t [] = ws.
Proof.
  intros H. induction H as [|c t ws Hc H IH|w t ws Hw Hn Ht H IH]; [reflexivity| |].
  - cbn [split_words]. rewrite Hc. exact IH.
  - rewrite split_run by exact Hn. cbn [app]. destruct t as [|c t]; cbn [split_words] in *.
    + destruct w; [congruence|]. rewrite <- IH. reflexivity.
    + rewrite Ht in *. destruct w; [congruence|]. rewrite IH. reflexivity.
Qed.
Lemma cut_total p t : exists ws, cut_into p t ws.
Proof.
  induction t as [|c t (ws & IH)]; [eexists; constructor|]. destruct (p_space p c) eqn:E; [exists ws; constructor; assumption|].
  destruct t as [|d t].
  - exists [[c]]. change [c] with ([c] ++ []). apply cut_word; [discriminate|repeat constructor; exact E|exact I|constructor].
  - destruct (p_space p d) eqn:Ed.
    + exists ([c] :: ws). change (c :: d :: t) with ([c] ++ d :: t). apply cut_word; [discriminate|repeat constructor; exact E|exact Ed|exact IH].
    + inversion IH as [|? ? ? Hs|w t' ws' Hw Hn Ht H' Eq]; subst; [congruence|]. exists ((c :: w) :: ws'). change (c :: w ++ t') with ((c :: w) ++ t').
      apply cut_word; [discriminate|constructor; assumption|exact Ht|exact H'].
Qed.
Lemma split_cut p t ws : split_words p t [] = ws <-> cut_into p t ws.
Proof. split; [|apply cut_split]. intros <-. destruct (cut_total p t) as (ws & H). rewrite (cut_split p t ws H). exact H. Qed.
Lemma occurrences_iff p k ts n : occurrences p k ts n <-> n = number_of p k (map (strip_word p) (flat_map (fun t => split_words p t []) ts)).
Proof.
  assert (H : forall wss, Forall2 (cut_into p) ts wss -> concat wss = flat_map (fun t => split_words p t []) ts).
  { intros wss H. induction H as [|t ws ts wss H1 H2 IH]; [reflexivity|]. cbn [concat flat_map]. rewrite IH. f_equal. symmetry. apply split_cut. exact H1. }
  split.
  - intros (wss & Hw & ->). rewrite <- (H wss Hw). reflexivity.
  - intros ->. exists (map (fun t => split_words p t []) ts). split; [|rewrite flat_map_concat_map; reflexivity].
    clear H. induction ts as [|t ts IH]; [constructor|]. constructor; [apply split_cut; reflexivity|exact IH].
Qed.
Lemma titles_words p files : flat_map (title_words p) (concat files) = map (strip_word p) (flat_map (fun t => split_words p t []) (titles files)).
Proof.
  unfold titles. induction (concat files) as [|[[t|] [b|]] l IH]; try reflexivity; cbn [flat_map whole title_words map app fst]; try exact IH. rewrite map_app, IH. reflexivity.
Qed.
Lemma bodies_words p files : flat_map (body_words p) (concat files) = map (strip_word p) (flat_map (fun t => split_words p t []) (bodies files)).
Proof.
  unfold bodies. induction (concat files) as [|[[t|] [b|]] l IH]; try reflexivity; cbn [flat_map whole body_words map app snd]; try exact IH. rewrite map_app, IH. reflexivity.
Qed.
Lemma uses_counted p : sane p -> folded p -> forall files title body, word_frequency p (map (extract p) files) = (title, body) ->
  (forall k, k <> [] /\ canonicalize p k = k -> occurrences p k (titles files) (count_form p k title) /\ occurrences p k (bodies files) (count_form p k body)) /\
  (forall k, k <> [] /\ canonicalize p k = k -> exists f, forall w, In w (map fst title ++ map fst body) -> canonicalize p w = k -> w = f) /\
  NoDup (map fst title) /\ NoDup (map fst body) /\ Forall (fun e => (1 <= snd e)%Z) (title ++ body).
Proof.
  intros Hs Hf files title body E. destruct (files_counted p Hs Hf files title body E) as (C1 & C2). split; [|exact C2]. intros k Hk. destruct (C1 k Hk) as [-> ->].
  rewrite titles_words, bodies_words. split; apply occurrences_iff; reflexivity.
Qed.
Lemma frequent_words p value wikt files f1 f2 f3 k n : sane p -> folded p ->
  main_lists p value wikt files = Ok (f1, f2, f3) -> k <> [] -> canonicalize p k = k -> k <> str "aeo" ->
  (occurrences p k (bodies files) n /\ (255 <= n)%Z \/ occurrences p k (titles files) n /\ (85 <= n)%Z) ->
  exists a line b, f3 = a ++ line :: b /\ canonicalize p (snd line) = k /\ forall x, In x (a ++ b) -> canonicalize p (snd x) <> k.
Proof.
  intros Hs Hf H H1 H2 H3 Hn. eapply (main_frequent p value wikt files); try eassumption. rewrite titles_words, bodies_words.
  destruct Hn as [[Ho Hn]|[Ho Hn]]; apply occurrences_iff in Ho; subst n; [left|right]; exact Hn.
Qed.
