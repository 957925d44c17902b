(** Proofs about the generator of wordlists: the lists after Wiktionary and after the titles. *)
From Coq Require Import String ZArith Permutation Sorting.
From Verif Require Export ListgenProofs3.
Local Open Scope list_scope.

Lemma add_word_result p s c w s' r : add_word p s c w = Ok (s', r) ->
  match r with
  | None => w = [] \/ canonicalize p w = [] \/ canonicalize p w = str "aeo"
  | Some n => w <> [] /\ canonicalize p w <> [] /\ canonicalize p w <> str "aeo" /\ get (points s') (canonicalize p w) = Some n
  end.
Proof.
  unfold add_word. destruct w as [|x w0]; [intros H; injection H as _ <-; auto|]. change (list N) with text in *. set (w := (x :: w0) : text).
  destruct (existsb (N.eqb 9) w); [discriminate|]. destruct (canonicalize p w) as [|y k0] eqn:Hk; [intros H; injection H as _ <-; auto|]. set (k := (y :: k0) : text) in *.
  cbn [existsb blocked]. rewrite orb_false_r. destruct (teq_spec k (str "aeo")) as [Hb|Hb]; [intros H; injection H as _ <-; auto|].
  intros H. injection H as <- <-. cbn [points]. split; [discriminate|]. split; [discriminate|]. split; [exact Hb|]. rewrite get_set, teq_refl. reflexivity.
Qed.
Definition section_inv (p : python) (l0 l : list (Z * text)) (s : tally) (wl : wordlist) : Prop :=
  counted_by p (l0 ++ l) s /\ NoDup (map fst wl) /\ positive (l0 ++ l) /\
  forall k n w, get wl k = Some (n, w) <-> (deserves p (l0 ++ l) k n /\ n <> 0%Z /\ uses p k l <> [] /\ last_use p k l = Some w).
Lemma uses_other p k l c w : (w = [] \/ canonicalize p w <> k) -> uses p k (l ++ [(c, w)]) = uses p k l.
Proof.
  intros Hk. rewrite uses_app. unfold uses at 2. cbn [filter snd]. destruct w as [|x w]; [apply app_nil_r|]. destruct Hk as [Hk|Hk]; [discriminate|]. rewrite teq_no by exact Hk. apply app_nil_r.
Qed.
Lemma uses_this p k l c w : w <> [] -> canonicalize p w = k -> uses p k (l ++ [(c, w)]) = uses p k l ++ [(c, w)].
Proof.
  intros Hw Hk. rewrite uses_app. f_equal. unfold uses. cbn [filter snd]. destruct w; [congruence|]. rewrite Hk, teq_refl. reflexivity.
Qed.
Lemma deserves_nonneg p l k n : positive l -> deserves p l k n -> (0 <= n)%Z.
Proof.
  intros Hp (_ & _ & _ & ->). assert (H : Forall (fun x => (0 <= x)%Z) (map (worth p) (uses p k l))).
  { apply Forall_map, Forall_forall. intros e He. apply worth_nonneg. unfold positive in Hp. rewrite Forall_forall in Hp. apply Hp. apply filter_In in He. apply He. }
  induction H; unfold total_of in *; cbn [fold_right] in *; lia.
Qed.
Lemma section_step p l0 l s wl c w s1 r : section_inv p l0 l s wl -> (1 <= c)%Z -> add_word p s c w = Ok (s1, r) ->
  section_inv p l0 (l ++ [(c, w)]) s1 (match r with Some n => if Z.eqb n 0 then wl else set wl (canonicalize p w) (n, w) | None => wl end).
Proof.
  intros (H1 & H2 & H3 & H4) Hc Ha. pose proof (add_word_counted _ _ _ _ _ _ _ H1 Hc Ha) as H1'. rewrite <- app_assoc in H1'. pose proof (add_word_result _ _ _ _ _ _ Ha) as Hr.
  assert (Hp : positive (l0 ++ l ++ [(c, w)])).
  { unfold positive in *. apply Forall_app in H3. destruct H3 as [P1 P2]. apply Forall_app. split; [exact P1|]. apply Forall_app. split; [exact P2|]. repeat constructor. exact Hc. }
  split; [exact H1'|].
  assert (Hsame : forall k n x, (w = [] \/ canonicalize p w <> k) -> (deserves p (l0 ++ l ++ [(c, w)]) k n /\ n <> 0%Z /\ uses p k (l ++ [(c, w)]) <> [] /\ last_use p k (l ++ [(c, w)]) = Some x) <->
    (deserves p (l0 ++ l) k n /\ n <> 0%Z /\ uses p k l <> [] /\ last_use p k l = Some x)).
  { intros k n x Hk. unfold deserves, last_use. rewrite app_assoc, !uses_other by exact Hk. reflexivity. }
  destruct r as [n|].
  - destruct Hr as (R1 & R2 & R3 & R4). set (k := canonicalize p w) in *.
    assert (D : deserves p (l0 ++ l ++ [(c, w)]) k n) by (apply H1'; exact R4).
    destruct (Z.eqb_spec n 0) as [->|Hn].
    + split; [exact H2|]. split; [exact Hp|]. intros k' m x. destruct (teq_spec k k') as [<-|Hne]; [|rewrite H4; symmetry; apply Hsame; right; exact Hne].
      split.
      * intros Hg. apply H4 in Hg. destruct Hg as (G1 & G2 & _). exfalso. pose proof (deserves_nonneg _ _ _ _ H3 G1) as G0. destruct G1 as (_ & _ & _ & G1), D as (_ & _ & _ & D).
        rewrite app_assoc, uses_this, map_app, total_app in D by (assumption || reflexivity). change (total_of (map (worth p) [(c, w)])) with (worth p (c, w) + 0)%Z in D. pose proof (worth_nonneg p (c, w) Hc). lia.
      * intros (G1 & G2 & _). destruct G2. exact (deserves_det _ _ _ _ _ G1 D).
    + split; [apply set_nodup; exact H2|]. split; [exact Hp|]. intros k' m x. rewrite get_set. destruct (teq_spec k k') as [<-|Hne]; [|rewrite H4; symmetry; apply Hsame; right; exact Hne].
      assert (Hl : last_use p k (l ++ [(c, w)]) = Some w) by (unfold last_use; rewrite uses_this, rev_app_distr by (assumption || reflexivity); reflexivity).
      rewrite Hl. split.
      * intros E. injection E as <- <-. split; [exact D|]. split; [exact Hn|]. split; [rewrite uses_this by (assumption || reflexivity); destruct (uses p k l); discriminate|reflexivity].
      * intros (G1 & _ & _ & E). injection E as <-. rewrite (deserves_det _ _ _ _ _ G1 D). reflexivity.
  - split; [exact H2|]. split; [exact Hp|]. intros k m x. rewrite H4. destruct Hr as [Hr|Hr]; [symmetry; apply Hsame; left; exact Hr|].
    destruct (teq_spec (canonicalize p w) k) as [E|E]; [|symmetry; apply Hsame; right; exact E]. unfold deserves. split; intros ((G1 & G2 & _) & _); destruct Hr; congruence.
Qed.
Lemma section_lines p times l : (1 <= times)%Z -> positive l -> forall l0 l1 s wl s' wl', section_inv p l0 l1 s wl ->
  foldM (add_line p times) l (s, wl) = Ok (s', wl') -> section_inv p l0 (l1 ++ map (fun e => (fst e * times, snd e)%Z) l) s' wl'.
Proof.
  intros Ht Hp. induction Hp as [|[c w] l Hc _ IH]; intros l0 l1 s wl s' wl' H E; cbn [foldM map] in E |- *.
  - injection E as <- <-. rewrite app_nil_r. exact H.
  - unfold add_line in E at 1. cbn [fst snd] in *. destruct (add_word p s (c * times) w) as [[s1 r]| | |] eqn:Ea; cbn [bind] in E; try discriminate.
    assert (Hct : (1 <= c * times)%Z) by nia. pose proof (section_step p l0 l1 s wl (c * times) w s1 r H Hct Ea) as H'. cbn [fst snd] in E.
    replace (l1 ++ (c * times, w)%Z :: map (fun e => (fst e * times, snd e)%Z) l) with ((l1 ++ [(c * times, w)%Z]) ++ map (fun e => (fst e * times, snd e)%Z) l) by (rewrite <- app_assoc; reflexivity).
    destruct r as [n|]; [destruct (Z.eqb n 0)|]; cbn [bind] in E; eapply IH; eassumption.
Qed.
Definition entry (e : text * (Z * text)) : Z * text := (fst (snd e), fst e).
Lemma dump_section p value l0 l s wl f : section_inv p l0 l s wl -> dump_final value wl = Ok f -> section_list p value l0 l f.
Proof.
  intros (H1 & H2 & H3 & H4) H. unfold dump_final in H. set (lt := fun a b : text * (Z * text) => Z.ltb (fst (snd a)) (fst (snd b))) in *. set (srt := sort_desc lt wl) in *.
  assert (Hperm : Permutation srt wl) by apply sort_perm.
  assert (Hsort : StronglySorted (fun a b => (fst (snd b) <= fst (snd a))%Z) srt).
  { assert (Hs0 : StronglySorted (fun a b => lt a b = false) srt) by (apply sort_sorted; unfold lt; intros; lia). clear - Hs0.
    induction Hs0 as [|a l0 S IH F]; [constructor|]. constructor; [exact IH|]. eapply Forall_impl; [|exact F]. intros x Hx. cbn beta in *. unfold lt in Hx. lia. }
  set (scores := map (fun e => fst (snd e)) wl) in *. rewrite fold_add, Z.add_0_l in H.
  assert (Hsc : Permutation (map fst (map entry srt)) scores) by (rewrite map_map; cbn [entry fst]; apply Permutation_map; exact Hperm).
  assert (Hne : wl <> []) by (intros Hz; rewrite Hz in H; discriminate H).
  exists (map entry srt), (smallest scores). split; [|split; [|split; [|split; [|split]]]].
  - intros n k. rewrite in_map_iff. split.
    + intros ([k' [n' w]] & E & Hi). injection E as -> ->. apply (Permutation_in _ Hperm) in Hi. apply get_in in Hi; [|exact H2]. apply H4 in Hi. destruct Hi as (G1 & G2 & G3 & _). auto.
    + intros (G1 & G2 & G3). assert (Hl : exists w, last_use p k l = Some w).
      { unfold last_use. destruct (rev (uses p k l)) eqn:E; [|eauto]. destruct G3. rewrite <- (rev_involutive (uses p k l)), E. reflexivity. }
      destruct Hl as [w Hw]. exists (k, (n, w)). split; [reflexivity|]. apply (Permutation_in _ (Permutation_sym Hperm)). apply get_in; [exact H2|]. apply H4. auto.
  - rewrite map_map. cbn [entry snd]. eapply Permutation_NoDup; [apply Permutation_map, Permutation_sym; exact Hperm|exact H2].
  - clear - Hsort. induction Hsort as [|a l S IH F]; [constructor|]. cbn [map]. constructor; [exact IH|]. apply Forall_map. exact F.
  - rewrite map_length, (Permutation_length Hperm). unfold scores in H. destruct wl as [|[k [n w]] [|e wl]]; [congruence| |cbn [length]; lia]. exfalso.
    cbn [map fst snd total_of fold_right smallest fold_left existsb] in H. rewrite Z.add_0_r, Z.leb_refl, !Bool.orb_true_r in H. cbn [orb] in H. discriminate.
  - destruct (smallest_least scores) as [S1 S2]; [unfold scores; destruct wl; [congruence|discriminate]|]. split; [eapply Permutation_in; [symmetry; exact Hsc|exact S1]|eapply Permutation_Forall; [symmetry; exact Hsc|exact S2]].
  - rewrite (total_perm _ _ Hsc). 
    assert (E : f = map (fun e => (value (total_of scores) (smallest scores) (fst (snd e)), snd (snd e))) srt).
    { destruct wl; [congruence|]. destruct (_ || _); [discriminate|]. congruence. }
    rewrite E. generalize (total_of scores) (smallest scores). intros T m.
    assert (Hlast : Forall (fun e => last_use p (fst e) l = Some (snd (snd e))) srt).
    { apply Forall_forall. intros [k [n w]] Hi. apply (Permutation_in _ Hperm) in Hi. apply get_in in Hi; [|exact H2]. apply H4 in Hi. cbn [fst snd]. apply Hi. }
    clear - Hlast. induction Hlast as [|e l' He _ IH]; [constructor|]. cbn [map]. constructor; [|exact IH]. split; [reflexivity|exact He].
Qed.
Lemma create_sections p value cutoff w t b f1 f2 f3 : positive w -> positive t ->
  create_wordlist p value cutoff w t b = Ok (f1, f2, f3) -> section_list p value [] w f1 /\ section_list p value w (tripled t) f2.
Proof.
  intros Pw Pt H. unfold create_wordlist in H.
  destruct (foldM (add_line p 1) w (mkTally [] [], [])) as [[s1 wl1]| | |] eqn:E1; cbn [bind] in H; try discriminate. cbn [fst snd] in H.
  destruct (dump_final value wl1) as [g1| | |] eqn:D1; cbn [bind] in H; try discriminate.
  destruct (foldM (add_line p 3) t (s1, [])) as [[s2 wl2]| | |] eqn:E2; cbn [bind] in H; try discriminate. cbn [fst snd] in H.
  destruct (dump_final value wl2) as [g2| | |] eqn:D2; cbn [bind] in H; try discriminate.
  destruct (foldM (add_body p) b s2) as [s3| | |]; cbn [bind] in H; try discriminate.
  destruct (dump_final value _) as [g3| | |] in H; cbn [bind] in H; try discriminate. injection H as <- <- <-.
  assert (I0 : forall l0 s, counted_by p l0 s -> positive l0 -> section_inv p l0 [] s []).
  { intros l0 s Hs Hp. unfold section_inv. rewrite app_nil_r. split; [exact Hs|]. split; [constructor|]. split; [exact Hp|]. intros k n x. split; [discriminate|]. intros (_ & _ & G & _). destruct G. reflexivity. }
  pose proof (section_lines p 1 w ltac:(lia) Pw [] [] _ _ _ _ (I0 [] _ (counted_empty p) ltac:(constructor)) E1) as S1.
  replace (map (fun e : Z * text => (fst e * 1, snd e)%Z) w) with w in S1.
  2:{ rewrite <- (map_id w) at 1. apply map_ext. intros [c x]. cbn [fst snd]. rewrite Z.mul_1_r. reflexivity. }
  cbn [app] in S1. split; [exact (dump_section _ _ _ _ _ _ _ S1 D1)|].
  destruct S1 as (C1 & _). pose proof (section_lines p 3 t ltac:(lia) Pt w [] _ _ _ _ (I0 w _ C1 Pw) E2) as S2. exact (dump_section _ _ _ _ _ _ _ S2 D2).
Qed.
