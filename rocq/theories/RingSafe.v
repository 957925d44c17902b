(** A group repeated without bound, among parts that are not repeated: its optimisation is harmless. *)
From Verif Require Export RingShape.

Lemma mul_pred k w : 1 <= k -> k * w = (k - 1) * w + w.
Proof. intros H. destruct k as [|k]; [lia|]. cbn [Nat.mul Nat.sub]. rewrite Nat.sub_0_r. lia. Qed.
Lemma copy_at o k w i : 1 <= w -> o <= i < o + k * w -> exists q, q < k /\ o + q * w <= i < o + q * w + w /\ q * w + w <= k * w.
Proof.
  intros Hw Hi. exists ((i - o) / w). pose proof (Nat.div_mod (i - o) w ltac:(lia)) as Hd. pose proof (Nat.mod_upper_bound (i - o) w ltac:(lia)) as Hm.
  set (q := (i - o) / w) in *. assert (Hq : q < k) by nia. split; [exact Hq|]. split; [nia|]. apply mul_lt. exact Hq.
Qed.
Lemma empty_or_solid l : forallb solid l = true -> l = [] \/ solid (Sequence l) = true.
Proof. intros H. destruct l as [|t l]; [left; reflexivity|right; exact H]. Qed.
Section ring.
  Variables (st : list state) (b e : list ast) (r : ast) (mn : nat) (cf : charset).
  Let k := Nat.max 1 mn.
  Let w := width r.
  Let o := width (Sequence b).
  Let f := S o + k * w.
  Let s := S o + (k - 1) * w.
  Let n0 := S f + width (Sequence e).
  Hypothesis Sb : forallb solid b = true.
  Hypothesis Sr : solid r = true.
  Hypothesis Se : forallb solid e = true.
  Hypothesis Sh : 2 <= shortest r.
  Hypothesis Len : length st = S n0.
  Hypothesis Fin : fine st.
  Hypothesis Hb : sits st (Sequence b) 0 o.
  Hypothesis Ho : isemp st o = true /\ forall j, E st o j <-> j = S o \/ (mn = 0 /\ j = f).
  Hypothesis Hc : forall i, i < k -> sits st r (S o + i * w) (S o + i * w + w).
  Hypothesis Hf : isemp st f = true /\ forall j, E st f j <-> j = S f \/ j = s.
  Hypothesis He : sits st (Sequence e) (S f) n0.
  Hypothesis Hcf : cf <> EMPTY.
  Hypothesis Hn0 : X st n0 = new_transition cf n0.

  Lemma r_pos : 1 <= k /\ 1 <= w /\ S o <= s /\ s + w = f /\ (mn = 0 -> k = 1 /\ s = S o).
  Proof.
    pose proof (solid_width _ Sr) as Hw. fold w in Hw. assert (1 <= k) by (unfold k; lia). split; [assumption|]. split; [exact Hw|]. unfold s, f.
    assert (Hk : k * w = (k - 1) * w + w) by (apply mul_pred; assumption). split; [apply Nat.le_add_r|]. split; [lia|]. intros Hm. assert (k = 1) by (unfold k; lia). split; [assumption|]. replace (k - 1) with 0 by lia. cbn [Nat.mul]. lia.
  Qed.
  (** The part of the pattern in which a state lies. *)
  Record zone (i p : nat) (a : ast) (x : nat) : Prop := {
    z_solid : solid a = true;
    z_sits : sits st a p x;
    z_in : p <= i < p + width a;
    z_o : p + width a <= o \/ o < p;
    z_f : p + width a <= f \/ f < p;
    z_x : ~ (p <= x < p + width a) \/ p = n0
  }.
  Lemma nonempty_solid l i p : p <= i < p + width (Sequence l) -> forallb solid l = true -> solid (Sequence l) = true.
  Proof. clear. intros Hi H. destruct l as [|t l]; [cbn in Hi; lia|]. exact H. Qed.
  Lemma zones i : i < length st -> i <> o -> i <> f -> exists p a x, zone i p a x /\ (f < i -> f < p) /\ (o < i < f -> o < p).
  Proof.
    destruct r_pos as (K1 & W1 & S1 & S2 & _). intros Hi Hio Hif. rewrite Len in Hi. unfold n0 in Hi. destruct (Nat.lt_ge_cases i o) as [C|C].
    - exists 0, (Sequence b), o. split; [|lia]. split; [apply (nonempty_solid b i 0); [fold o; lia|exact Sb]|exact Hb|fold o; lia|fold o; lia|fold o; lia|left; fold o; lia].
    - destruct (Nat.lt_ge_cases i f) as [D|D].
      + destruct (copy_at (S o) k w i W1) as (q & Hq & Hb1 & Hb2); [unfold f in D; lia|]. exists (S o + q * w), r, (S o + q * w + w). split; [|lia].
        split; [exact Sr|apply Hc; exact Hq|exact Hb1|right; lia|left; fold w; unfold f; lia|left; fold w; lia].
      + destruct (Nat.eq_dec i n0) as [->|Hne].
        * exists n0, (CharClass cf), n0. split; [|unfold n0; lia]. split; [cbn [solid]; apply negb_true_iff, N.eqb_neq; exact Hcf| |cbn [width]; lia|right; unfold n0, f; lia|right; unfold n0, f; lia|right; reflexivity].
          exists [(false, new_transition cf n0)]. split; [reflexivity|]. intros k' y Hk. destruct k' as [|k']; [|destruct k'; discriminate]. injection Hk as <-. rewrite Nat.add_0_r. exact Hn0.
        * exists (S f), (Sequence e), n0. split; [|lia]. split; [apply (nonempty_solid e i (S f)); [unfold n0 in Hne; lia|exact Se]|exact He|unfold n0 in Hne; lia|right; unfold f; lia|right; lia|left; unfold n0; lia].
  Qed.
  Lemma zone_closed i p a x j : zone i p a x -> reaches st i j -> p <= j < p + width a.
  Proof. intros [Z1 Z2 Z3 _ _ _] R. eapply closed_reaches; [eapply solid_in; [exact Z1|exact Z2]|exact Z3|exact R]. Qed.
  Lemma zone_kind i p a x : zone i p a x -> (isemp st i = false /\ forall j, ~ E st i j) \/ (exists ts, hub st ts i /\ i + width (Alternatives ts) <= p + width a).
  Proof. intros [Z1 Z2 Z3 _ _ _]. eapply solid_kinds; eassumption. Qed.

  Lemma reach_f v : reaches st f v <-> v = f \/ reaches st s v \/ reaches st (S f) v.
  Proof.
    split.
    - intros R. inversion R as [|? j ? Hj R2]; subst; [auto|]. apply Hf in Hj. destruct Hj as [->| ->]; auto.
    - intros [->|[R|R]]; [constructor|eapply re_step; [apply Hf; right; reflexivity|exact R]|eapply re_step; [apply Hf; left; reflexivity|exact R]].
  Qed.
  Lemma reach_o v : reaches st o v <-> v = o \/ reaches st (S o) v \/ (mn = 0 /\ reaches st f v).
  Proof.
    split.
    - intros R. inversion R as [|? j ? Hj R2]; subst; [auto|]. apply Ho in Hj. destruct Hj as [->|[Hm ->]]; auto.
    - intros [->|[R|[Hm R]]]; [constructor|eapply re_step; [apply Ho; left; reflexivity|exact R]|eapply re_step; [apply Ho; right; split; [exact Hm|reflexivity]|exact R]].
  Qed.
  Lemma copy_in i v : i < k -> reaches st (S o + i * w) v -> S o + i * w <= v < S o + i * w + w.
  Proof. intros Hi R. destruct r_pos as (_ & W1 & _). apply (closed_reaches st (S o + i * w) w (S o + i * w)); [apply (solid_in st r Sr _ _ (Hc i Hi))|lia|exact R]. Qed.
  Lemma s_in v : reaches st s v -> s <= v < f.
  Proof. destruct r_pos as (K1 & W1 & S1 & S2 & _). intros R. pose proof (copy_in (k - 1) v ltac:(lia) R). unfold s in *. lia. Qed.
  Lemma So_in v : reaches st (S o) v -> S o <= v < S o + w.
  Proof. destruct r_pos as (K1 & _). intros R. pose proof (copy_in 0 v K1) as G. cbn [Nat.mul] in G. rewrite Nat.add_0_r in G. exact (G R). Qed.
  Lemma Sf_in v : reaches st (S f) v -> f < v.
  Proof.
    intros R. destruct r_pos as (_ & _ & S1 & S2 & _). destruct (zones (S f)) as (p & a & x & Z & Z1 & _); [rewrite Len; unfold n0; lia|lia|lia|]. pose proof (zone_closed _ _ _ _ _ Z R). lia.
  Qed.
  Lemma no_o i : i < length st -> i <> o -> ~ reaches st i o.
  Proof.
    intros Hi Hne R. destruct r_pos as (K1 & W1 & S1 & S2 & _). destruct (Nat.eq_dec i f) as [->|Hf'].
    - apply reach_f in R. destruct R as [R|[R|R]]; [lia|apply s_in in R; lia|apply Sf_in in R; lia].
    - destruct (zones i Hi Hne Hf') as (p & a & x & Z & _). pose proof (zone_closed _ _ _ _ _ Z R). destruct Z. lia.
  Qed.
  Lemma alone_char i : i < length st -> (forall j, reaches st i j -> j = i) -> isemp st i = false.
  Proof.
    intros Hi Ha. destruct r_pos as (K1 & W1 & S1 & S2 & _). destruct (Nat.eq_dec i f) as [->|Hf'].
    - exfalso. assert (S f = f); [|lia]. apply Ha, reach_f. right; right. constructor.
    - destruct (Nat.eq_dec i o) as [->|Ho'].
      + exfalso. assert (S o = o); [|lia]. apply Ha, reach_o. right; left. constructor.
      + destruct (zones i Hi Ho' Hf') as (p & a & x & Z & _). destruct (zone_kind _ _ _ _ Z) as [[G _]|(ts & Hh & _)]; [exact G|]. exfalso.
        destruct (hub_solid _ _ _ Hh) as [H2 Hs]. destruct (two_arms ts (S i) H2 Hs 0) as (t' & q' & Ht & _). destruct Hh as [HS Hsit]. destruct (sits_alts _ _ _ _ HS Hsit) as (_ & H1 & _).
        assert (q' = i); [|apply arm_in in Ht; lia]. apply Ha. eapply re_step; [apply H1; exists t'; exact Ht|constructor].
  Qed.
  Lemma none_like i i2 : i < length st -> i <> o -> isemp st i = true -> i2 < length st -> ~ (forall u, reaches st i2 u <-> reaches st i u /\ u <> i).
  Proof.
    intros Hi Hne Hemp Hi2 H. destruct r_pos as (K1 & W1 & S1 & S2 & _). destruct (Nat.eq_dec i f) as [->|Hf'].
    - destruct (proj1 (H i2) (re_refl _ _)) as [R Hn]. apply reach_f in R. destruct R as [R|[R|R]]; [congruence| |].
      + apply s_in in R. destruct (zones i2 Hi2 ltac:(lia) ltac:(lia)) as (p & a & x & Z & _ & Z2).
        assert (R2 : reaches st i2 (S f)) by (apply H; split; [apply reach_f; right; right; constructor|lia]). pose proof (zone_closed _ _ _ _ _ Z R2). destruct Z. lia.
      + apply Sf_in in R. destruct (zones i2 Hi2 ltac:(lia) ltac:(lia)) as (p & a & x & Z & Z1 & _).
        assert (R2 : reaches st i2 s) by (apply H; split; [apply reach_f; right; left; constructor|lia]). pose proof (zone_closed _ _ _ _ _ Z R2). lia.
    - destruct (zones i Hi Hne Hf') as (p & a & x & Z & _). destruct (zone_kind _ _ _ _ Z) as [[G _]|(ts & Hh & _)]; [congruence|]. exact (hub_alone st ts i Hh i2 H).
  Qed.
  (** What the end of the group reaches. *)
  Lemma pair_f c : c < length st -> next (X st c) <> c -> (forall j, reaches st c j -> j = c) -> reaches st f c -> ~ reaches st f (next (X st c)) /\ o < next (X st c).
  Proof.
    intros Hcl Hcc Ha R. destruct r_pos as (K1 & W1 & S1 & S2 & _). pose proof (alone_char c Hcl Ha) as Hch. apply reach_f in R. destruct R as [->|[R|R]]; [rewrite (proj1 Hf) in Hch; discriminate| |].
    - assert (Hs : sits st r s (s + w)) by (unfold s; apply Hc; lia).
      destruct (solid_first st r Sr s (s + w) Hs ltac:(fold w; lia) c R Hch) as [N1 N2]. fold w in N2. destruct N2 as [N2|[N2 _]]; [|lia]. split; [|lia].
      intros R2. apply reach_f in R2. destruct R2 as [R2|[R2|R2]]; [lia|exact (N1 R2)|apply Sf_in in R2; lia].
    - destruct (empty_or_solid e Se) as [Ee|HS].
      + assert (Hn : n0 = S f) by (unfold n0; rewrite Ee; change (width (Sequence [])) with 0; lia). exfalso. assert (c = S f).
        { inversion R as [|? j ? Hj _]; [reflexivity|]. unfold E in Hj. rewrite <- Hn, Hn0 in Hj. destruct (class_E _ _ _ Hj). }
        subst c. apply Hcc. rewrite <- Hn, Hn0. reflexivity.
      + pose proof (solid_width _ HS) as Hw. assert (Hx : ~ (S f <= n0 < S f + width (Sequence e))) by (unfold n0; lia).
        destruct (solid_first st _ HS (S f) n0 He Hx c R Hch) as [N1 N2]. assert (Hgt : S f < next (X st c)) by (destruct N2 as [N2|[_ [N2|[_ N2]]]]; unfold n0 in N2; lia).
        split; [|lia]. intros R2. apply reach_f in R2. destruct R2 as [R2|[R2|R2]]; [lia|apply s_in in R2; lia|exact (N1 R2)].
  Qed.
  Lemma pair_o c : c < length st -> next (X st c) <> c -> (forall j, reaches st c j -> j = c) -> reaches st o c -> c <> o -> ~ reaches st o (next (X st c)).
  Proof.
    intros Hcl Hcc Ha R Hne R2. destruct r_pos as (K1 & W1 & S1 & S2 & S3). pose proof (alone_char c Hcl Ha) as Hch. destruct (Nat.eq_dec mn 0) as [Hm|Hm].
    - destruct (S3 Hm) as [_ S4].
      assert (Heq : forall v, reaches st o v -> v <> o -> reaches st f v).
      { intros v Rv Hv. apply reach_o in Rv. destruct Rv as [Rv|[Rv|[_ Rv]]]; [congruence|apply reach_f; right; left; rewrite S4; exact Rv|exact Rv]. }
      destruct (pair_f c Hcl Hcc Ha (Heq c R Hne)) as [N1 N2]. apply N1. apply Heq; [exact R2|lia].
    - apply reach_o in R, R2. destruct R as [R|[R|[R _]]]; [congruence| |lia].
      assert (Hs : sits st r (S o) (S o + w)) by (pose proof (Hc 0 K1) as G; cbn [Nat.mul] in G; rewrite Nat.add_0_r in G; exact G).
      destruct (solid_first st r Sr (S o) (S o + w) Hs ltac:(fold w; lia) c R Hch) as [N1 N2]. fold w in N2. destruct N2 as [N2|[N2 _]]; [|lia].
      destruct R2 as [R2|[R2|[R2 _]]]; [lia|exact (N1 R2)|lia].
  Qed.
  Lemma pair_hub i c : i < length st -> i <> o -> i <> f -> isemp st i = true -> c < length st -> (forall j, reaches st c j -> j = c) -> reaches st i c ->
    ~ reaches st i (next (X st c)) /\ (next (X st c) = o -> forall v, reaches st i v -> v < o).
  Proof.
    intros Hi Hio Hif Hemp Hcl Ha R. destruct (zones i Hi Hio Hif) as (p & a & x & Z & _). destruct (zone_kind _ _ _ _ Z) as [[G _]|(ts & Hh & Hin)]; [congruence|].
    pose proof (alone_char c Hcl Ha) as Hch. destruct Hh as [HS Hsit]. destruct (solid_first st _ HS i _ Hsit ltac:(lia) c R Hch) as [N1 N2]. split; [exact N1|].
    intros Hn v Rv. assert (Hv : i <= v < i + width (Alternatives ts)).
    { eapply closed_reaches; [eapply solid_in; [exact HS|exact Hsit]| |exact Rv]. pose proof (solid_width _ HS). lia. }
    destruct Z. destruct N2 as [N2|[_ [N2|[_ N2]]]]; lia.
  Qed.

  Lemma ring_tame st1 : closes st st1 -> tame st.
  Proof.
    intros C. pose proof (cl_len _ _ C) as L1. destruct r_pos as (K1 & W1 & S1 & S2 & S3).
    assert (HE : forall i v, E st1 i v <-> i < length st /\ reaches st i v).
    { intros i v. split; [intros H; pose proof (E_in _ _ _ H) as Hi; rewrite L1 in Hi; split; [exact Hi|apply (cl_E _ _ C); assumption]|intros [H1 H2]; apply (cl_E _ _ C); assumption]. }
    assert (Hem : forall i, i < length st -> isemp st1 i = isemp st i) by (intros i Hi; unfold isemp; destruct (cl_chr _ _ C i Hi) as [-> _]; reflexivity).
    assert (Hnx : forall i, i < length st -> next (X st1 i) = next (X st i)) by (intros i Hi; apply (cl_chr _ _ C i Hi)).
    assert (Lo : o < length st /\ f < length st) by (rewrite Len; unfold n0; lia). destruct Lo as [Lo Lf].
    assert (Hlike : forall i i2, i < length st1 -> i <> o -> isemp st1 i = true -> i2 < length st1 -> ~ (forall u, E st1 i2 u <-> E st1 i u /\ u <> i)).
    { intros i i2 Hi Hio Hemp Hi2 H. rewrite L1 in Hi, Hi2. rewrite Hem in Hemp by exact Hi. apply (none_like i i2 Hi Hio Hemp Hi2). intros u. specialize (H u). rewrite !HE in H. tauto. }
    assert (Hal : forall c, c < length st -> (forall j, E st1 c j -> j = c) -> forall j, reaches st c j -> j = c) by (intros c Hcl H j R; apply H, HE; auto).
    destruct (Nat.eq_dec o 0) as [Z0|Z0].
    - apply (calm_tame st st1 C (closes_fine _ _ Fin C)). split.
      + exact (closed_refl _ _ C).
      + exact (closed_trans _ _ Fin C).
      + intros i i2 Hi Hemp Hi2. apply Hlike; [lia|lia|exact Hemp|exact Hi2].
      + intros i c Hi Hcl [P0 P1 P2 P3 P4 P5 P6 _]. rewrite L1 in Hi, Hcl. rewrite Hem in P1 by exact Hi. rewrite Hnx in * by exact Hcl. apply HE in P5, P6. destruct P5 as [_ P5], P6 as [_ P6].
        pose proof (Hal c Hcl P4) as Ha. destruct (Nat.eq_dec i o) as [->|Hio]; [exact (pair_o c Hcl P3 Ha P5 ltac:(lia) P6)|].
        destruct (Nat.eq_dec i f) as [->|Hif]; [exact (proj1 (pair_f c Hcl P3 Ha P5) P6)|exact (proj1 (pair_hub i c Hi Hio Hif P1 Hcl Ha P5) P6)].
    - set (t := if mn =? 0 then f else S o).
      assert (Ht : o < t /\ t < n0) by (unfold t, n0; destruct (mn =? 0); lia).
      apply (one_tame st st1 o t Fin C).
      + rewrite Hem by exact Lo. apply Ho.
      + rewrite L1, Len. lia.
      + apply similar_iff_uniq. rewrite L1, Len. split; [lia|]. split; [lia|]. unfold t. destruct (Nat.eqb_spec mn 0) as [Hm|Hm].
        * destruct (S3 Hm) as [Hk Hs]. split.
          -- intros j. rewrite !HE. split.
             ++ intros [_ R]. split; [split; [exact Lo|apply reach_o; auto]|]. intros ->. exact (no_o f Lf ltac:(lia) R).
             ++ intros [[_ R] Hne]. split; [exact Lf|]. apply reach_o in R. destruct R as [R|[R|[_ R]]]; [congruence| |exact R]. apply reach_f. right; left. rewrite Hs. exact R.
          -- intros u Hu H. assert (R : E st1 u f) by (apply H; split; [apply HE; split; [exact Lo|apply reach_o; right; right; split; [exact Hm|constructor]]|lia]).
             apply HE in R. destruct R as [Hul R]. destruct (zones u Hul ltac:(lia) ltac:(lia)) as (p & a & x & Z & _). pose proof (zone_closed _ _ _ _ _ Z R). destruct Z. lia.
        * split; [|intros u Hu; lia]. intros j. rewrite !HE. split.
          -- intros [_ R]. split; [split; [exact Lo|apply reach_o; auto]|]. apply So_in in R. lia.
          -- intros [[_ R] Hne]. split; [lia|]. apply reach_o in R. destruct R as [R|[R|[R _]]]; [congruence|exact R|lia].
      + intros i Hne H. apply HE in H. destruct H as [Hi R]. exact (no_o i Hi Hne R).
      + intros i i2 Hi Hio Hemp Hi2. apply Hlike; [lia|exact Hio|exact Hemp|exact Hi2].
      + intros i c Hi Hcl Hio Hemp Hcc P4 P5. rewrite L1 in Hi, Hcl. rewrite Hem in Hemp by exact Hi. rewrite Hnx in * by exact Hcl. apply HE in P5. destruct P5 as [_ P5].
        pose proof (Hal c Hcl P4) as Ha. destruct (Nat.eq_dec i f) as [->|Hif].
        * destruct (pair_f c Hcl Hcc Ha P5) as [N1 N2]. split; [intros H; apply HE in H; apply N1, H|lia].
        * destruct (pair_hub i c Hi Hio Hif Hemp Hcl Ha P5) as [N1 N2]. split; [intros H; apply HE in H; apply N1, H|]. intros Hn H. apply HE in H. pose proof (N2 Hn t (proj2 H)). lia.
  Qed.
End ring.
