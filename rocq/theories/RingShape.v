(** What the states of a pattern without repetitions reach, and those of a repeated one. *)
From Verif Require Export RingOpt AltShape Runs.

Lemma solid_branching a : solid a = true -> branching a = true.
Proof.
  induction a as [cs|l IH|l IH|l IH|t mn mx IH|k b] using ast_ind'; intros H; cbn [solid] in H; try discriminate; [reflexivity| |].
  - apply andb_true_iff in H. destruct H as [H H2]. apply andb_true_iff in H. destruct H as [H0 H1]. cbn [branching]. rewrite H0, H2, andb_true_r. cbn [andb].
    apply forallb_forall. intros t Ht. rewrite Forall_forall in IH. rewrite forallb_forall in H1. auto.
  - apply andb_true_iff in H. destruct H as [_ H1]. cbn [branching]. apply forallb_forall. intros t Ht. rewrite Forall_forall in IH. rewrite forallb_forall in H1. auto.
Qed.
Lemma solid_width a : solid a = true -> 1 <= width a.
Proof.
  induction a as [cs|l IH|l IH|l IH|t mn mx IH|k b] using ast_ind'; intros H; cbn [solid] in H; try discriminate; [cbn; lia|rewrite alts_width; lia|].
  destruct l as [|t l]; [discriminate|]. rewrite sum_cons. apply andb_true_iff in H. destruct H as [_ H]. cbn [forallb] in H. apply andb_true_iff in H. pose proof (Forall_inv IH (proj1 H)). lia.
Qed.
Lemma solid_cons t ts : solid (Sequence (t :: ts)) = true -> solid t = true /\ (ts = [] \/ solid (Sequence ts) = true).
Proof.
  cbn [solid andb forallb]. intros H. apply andb_true_iff in H. destruct H as [H1 H2]. split; [exact H1|]. destruct ts; [auto|right; exact H2].
Qed.

Section shape.
  Variable st : list state.
  Definition sits (a : ast) (o x : nat) : Prop := exists l, lay a o x l /\ forall k y, nth_error l k = Some y -> X st (o + k) = snd y.

  Lemma sits_class cs o x : sits (CharClass cs) o x -> X st o = new_transition cs x.
  Proof. intros (l & -> & H). specialize (H 0 _ eq_refl). rewrite Nat.add_0_r in H. exact H. Qed.
  Lemma sits_cons t ts o x : solid t = true -> sits (Sequence (t :: ts)) o x ->
    sits t o (match ts with [] => x | _ => o + width t end) /\ sits (Sequence ts) (o + width t) x.
  Proof.
    intros HS (l & Hl & H). apply lay_Sequence in Hl. cbn [lay_seq] in Hl. destruct Hl as (l1 & l2 & -> & H1 & H2).
    pose proof (lay_length t (solid_branching _ HS) _ _ _ H1) as L1. split.
    - exists l1. split; [exact H1|]. intros k y Hk. apply H. rewrite nth_error_app1; [exact Hk|]. eapply nth_lt. exact Hk.
    - exists l2. split; [apply lay_Sequence; exact H2|]. intros k y Hk. rewrite <- Nat.add_assoc. apply H. rewrite nth_error_app2 by lia. replace (width t + k - length l1) with k by lia. exact Hk.
  Qed.
  Inductive arm : list ast -> nat -> ast -> nat -> Prop :=
  | arm_here t ts p : arm (t :: ts) p t p
  | arm_later t ts p u q : arm ts (p + width t) u q -> arm (t :: ts) p u q.
  Lemma arm_in ts p t q : arm ts p t q -> In t ts /\ p <= q /\ q + width t <= p + width (Sequence ts).
  Proof.
    induction 1 as [t ts p|t ts p u q H (I1 & I2 & I3)]; rewrite sum_cons; [split; [left; reflexivity|lia]|]. split; [right; exact I1|]. lia.
  Qed.
  Lemma arm_same ts p t q : arm ts p t q -> forall t' q' n, arm ts p t' q' -> q <= n < q + width t -> q' <= n < q' + width t' -> q = q'.
  Proof.
    induction 1 as [t ts p|t ts p u q H IH]; intros t' q' n H' N1 N2; inversion H' as [? ? ? |? ? ? ? ? H2]; subst.
    - reflexivity.
    - apply arm_in in H2. lia.
    - apply arm_in in H. lia.
    - eapply IH; eassumption.
  Qed.
  Lemma arm_starts ts : forall p q, In q (starts ts p) <-> exists t, arm ts p t q.
  Proof.
    induction ts as [|t ts IH]; intros p q; cbn [starts In]; [split; [intros []|intros (t & H); inversion H]|]. rewrite IH. split.
    - intros [->|(u & H)]; [exists t; constructor|exists u; constructor; exact H].
    - intros (u & H). inversion H; subst; [left; reflexivity|right; eauto].
  Qed.
  Lemma sits_alts ts o x : solid (Alternatives ts) = true -> sits (Alternatives ts) o x ->
    isemp st o = true /\ (forall j, E st o j <-> exists t, arm ts (S o) t j) /\
    (forall t q, arm ts (S o) t q -> sits t q (o + width (Alternatives ts)) /\ solid t = true /\ ends_in_class t = true) /\
    sits (Alternatives ts) o (o + width (Alternatives ts)).
  Proof.
    intros HS (l & Hl & H). cbn [solid] in HS. apply andb_true_iff in HS. destruct HS as [HS S3]. apply andb_true_iff in HS. destruct HS as [S1 S2].
    pose proof Hl as Hl0. apply lay_Alternatives in Hl. destruct Hl as (e & l' & -> & He & Hl).
    pose proof (H 0 _ eq_refl) as H0. rewrite Nat.add_0_r in H0. cbn [snd] in H0.
    split; [unfold isemp; rewrite H0; reflexivity|]. split; [|split].
    - intros j. unfold E. rewrite H0. cbn [eps]. rewrite He. apply arm_starts.
    - set (jn := o + width (Alternatives ts)) in *. clearbody jn.
      assert (H' : forall k y, nth_error l' k = Some y -> X st (S o + k) = snd y).
      { intros k y Hk. replace (S o + k) with (o + S k) by lia. apply H. exact Hk. }
      clear H H0 He Hl0 S1. intros t q Ha. revert l' Hl H' S2 S3. generalize dependent q. generalize (S o). induction ts as [|u ts IH]; intros p q Ha l' Hl H' S2 S3; [inversion Ha|].
      cbn [lay_alts] in Hl. destruct Hl as (l1 & l2 & -> & H1 & H2). cbn [forallb] in S2, S3. apply andb_true_iff in S2, S3. destruct S2 as [A1 A2], S3 as [B1 B2].
      pose proof (lay_length u (solid_branching _ A1) _ _ _ H1) as L1. inversion Ha; subst.
      + split; [|auto]. exists l1. split; [exact H1|]. intros k y Hk. apply H'. rewrite nth_error_app1; [exact Hk|]. eapply nth_lt. exact Hk.
      + apply (IH (p + width u) q) with (l' := l2); [assumption|exact H2| |exact A2|exact B2]. intros k y Hk. rewrite <- Nat.add_assoc. apply H'. rewrite nth_error_app2 by lia. replace (width u + k - length l1) with k by lia. exact Hk.
    - exists ((true, mkState e EMPTY 0) :: l'). split; [apply lay_Alternatives; exists e, l'; auto|exact H].
  Qed.

  (** What is reached stays inside. *)
  Definition closed_in (p w : nat) : Prop := forall i j, p <= i < p + w -> E st i j -> p <= j < p + w.
  Lemma class_E cs n j : ~ mem (eps (new_transition cs n)) j = true.
  Proof. cbn [new_transition eps]. rewrite mem_0. discriminate. Qed.
  Lemma solid_in a : solid a = true -> forall o x, sits a o x -> closed_in o (width a).
  Proof.
    induction a as [cs|ts IH|ts IH|l IH|t mn mx IH|k b] using ast_ind'; intros HS o x H i j Hi Hj; try (cbn [solid] in HS; discriminate).
    - cbn [width] in *. assert (i = o) by lia. subst i. apply sits_class in H. unfold E in Hj. rewrite H in Hj. destruct (class_E _ _ _ Hj).
    - destruct (sits_alts _ _ _ HS H) as (_ & H1 & H2 & _). rewrite alts_width in *. destruct (Nat.eq_dec i o) as [->|Hne].
      + apply H1 in Hj. destruct Hj as (t & Ht). destruct (H2 _ _ Ht) as (_ & St & _). apply arm_in in Ht. pose proof (solid_width _ St). lia.
      + assert (HA : exists t q, arm ts (S o) t q /\ q <= i < q + width t).
        { assert (Hi' : S o <= i < S o + width (Sequence ts)) by lia. revert Hi'. clear. generalize (S o). induction ts as [|t ts IH]; intros p Hi; [cbn in Hi; lia|]. rewrite sum_cons in Hi.
          destruct (Nat.lt_ge_cases i (p + width t)); [exists t, p; split; [constructor|lia]|]. destruct (IH (p + width t) ltac:(lia)) as (u & q & H1 & H2). exists u, q. split; [constructor; exact H1|exact H2]. }
        destruct HA as (t & q & Ht & Hq). destruct (H2 _ _ Ht) as (Hs & St & _). pose proof (arm_in _ _ _ _ Ht) as (Hin & Hb1 & Hb2). rewrite Forall_forall in IH.
        pose proof (IH t Hin St _ _ Hs i j Hq Hj). lia.
    - assert (Hs : forallb solid ts = true) by (cbn [solid] in HS; apply andb_true_iff in HS; apply HS). clear HS. revert o H Hi Hs.
      induction IH as [|t ts Ht _ IHt]; intros o H Hi Hs; [cbn in Hi; lia|]. cbn [forallb] in Hs. apply andb_true_iff in Hs. destruct Hs as [S1 S2].
      destruct (sits_cons _ _ _ _ S1 H) as [H1 H2]. rewrite sum_cons in *. destruct (Nat.lt_ge_cases i (o + width t)) as [C|C].
      + pose proof (Ht S1 _ _ H1 i j ltac:(lia) Hj). lia.
      + pose proof (IHt _ H2 ltac:(lia) S2). lia.
  Qed.
  Lemma closed_reaches p w i j : closed_in p w -> p <= i < p + w -> reaches st i j -> p <= j < p + w.
  Proof. intros H Hi P. induction P as [i|i k j He _ IH]; [exact Hi|]. apply IH. eapply H; eassumption. Qed.
  Lemma arm_at ts i : forall p, p <= i < p + width (Sequence ts) -> exists t q, arm ts p t q /\ q <= i < q + width t.
  Proof.
    induction ts as [|t ts IH]; intros p Hi; [cbn in Hi; lia|]. rewrite sum_cons in Hi.
    destruct (Nat.lt_ge_cases i (p + width t)); [exists t, p; split; [constructor|lia]|]. destruct (IH (p + width t) ltac:(lia)) as (u & q & H1 & H2). exists u, q. split; [constructor; exact H1|exact H2].
  Qed.

  (** A state reads a class or stands in front of alternatives. *)
  Definition hub (ts : list ast) (i : nat) : Prop := solid (Alternatives ts) = true /\ sits (Alternatives ts) i (i + width (Alternatives ts)).
  Lemma solid_kinds a : solid a = true -> forall o x, sits a o x -> forall i, o <= i < o + width a ->
    (isemp st i = false /\ forall j, ~ E st i j) \/ (exists ts, hub ts i /\ i + width (Alternatives ts) <= o + width a).
  Proof.
    induction a as [cs|ts IH|ts IH|l IH|t mn mx IH|k b] using ast_ind'; intros HS o x H i Hi; try (cbn [solid] in HS; discriminate).
    - cbn [width] in Hi. assert (i = o) by lia. subst i. apply sits_class in H. left. unfold isemp, E. rewrite H. split; [|intros j; apply class_E]. cbn [solid] in HS. apply negb_true_iff in HS. exact HS.
    - destruct (sits_alts _ _ _ HS H) as (_ & H1 & H2 & H3). destruct (Nat.eq_dec i o) as [->|Hne]; [right; exists ts; split; [split; assumption|lia]|].
      rewrite alts_width in *. destruct (arm_at ts i (S o)) as (t & q & Ht & Hq); [lia|]. destruct (H2 _ _ Ht) as (Hs & St & _). pose proof (arm_in _ _ _ _ Ht) as (Hin & Hb1 & Hb2). rewrite Forall_forall in IH.
      destruct (IH t Hin St _ _ Hs i Hq) as [G|(us & G1 & G2)]; [left; exact G|right; exists us; split; [exact G1|lia]].
    - assert (Hs : forallb solid ts = true) by (cbn [solid] in HS; apply andb_true_iff in HS; apply HS). clear HS. revert o H Hi Hs.
      induction IH as [|t ts Ht _ IHt]; intros o H Hi Hs; [cbn in Hi; lia|]. cbn [forallb] in Hs. apply andb_true_iff in Hs. destruct Hs as [S1 S2].
      destruct (sits_cons _ _ _ _ S1 H) as [H1 H2]. rewrite sum_cons in *. destruct (Nat.lt_ge_cases i (o + width t)) as [C|C].
      + destruct (Ht S1 _ _ H1 i ltac:(lia)) as [G|(us & G1 & G2)]; [left; exact G|right; exists us; split; [exact G1|lia]].
      + destruct (IHt _ H2 ltac:(lia) S2) as [G|(us & G1 & G2)]; [left; exact G|right; exists us; split; [exact G1|lia]].
  Qed.
  Lemma two_arms ts p : 2 <= length ts -> forallb solid ts = true -> forall q, exists t' q', arm ts p t' q' /\ q' <> q.
  Proof.
    intros H2 Hs q. destruct ts as [|t [|t2 ts]]; cbn [length] in H2; [lia|lia|]. cbn [forallb] in Hs. apply andb_true_iff in Hs. destruct Hs as [S1 _]. pose proof (solid_width _ S1).
    destruct (Nat.eq_dec p q) as [->|Hne]; [exists t2, (q + width t); split; [constructor; constructor|lia]|exists t, p; split; [constructor|exact Hne]].
  Qed.
  Lemma hub_solid ts i : hub ts i -> 2 <= length ts /\ forallb solid ts = true.
  Proof. intros [H _]. cbn [solid] in H. apply andb_true_iff in H. destruct H as [H _]. apply andb_true_iff in H. destruct H as [H1 H2]. apply Nat.leb_le in H1. auto. Qed.
  (** What stands in front of alternatives is like no other state. *)
  Lemma hub_alone ts i : hub ts i -> forall i2, ~ (forall u, reaches st i2 u <-> reaches st i u /\ u <> i).
  Proof.
    intros Hh i2 H. pose proof Hh as [HS Hsit]. destruct (sits_alts _ _ _ HS Hsit) as (_ & H1 & H2 & _). destruct (hub_solid _ _ Hh) as [S2 Ss].
    destruct (proj1 (H i2) (re_refl _ _)) as [R Hne].
    inversion R as [|? s ? He R2]; subst; [congruence|]. apply H1 in He. destruct He as (t & Ht). destruct (H2 _ _ Ht) as (Hs & St & _).
    pose proof (solid_in _ St _ _ Hs) as Hc. assert (Hb : s <= s < s + width t) by (pose proof (solid_width _ St); lia).
    pose proof (closed_reaches _ _ _ _ Hc Hb R2) as Hi2. destruct (two_arms ts (S i) S2 Ss s) as (t' & q' & Ht' & Hq').
    assert (R3 : reaches st i2 q').
    { apply H. split; [eapply re_step; [apply H1; exists t'; exact Ht'|constructor]|]. apply arm_in in Ht'. lia. }
    pose proof (closed_reaches _ _ _ _ Hc Hi2 R3) as Hq2. destruct (H2 _ _ Ht') as (_ & St' & _). pose proof (solid_width _ St').
    apply Hq'. symmetry. eapply (arm_same ts (S i) t s Ht t' q' q'); [exact Ht'|exact Hq2|lia].
  Qed.
  (** What is read first does not lead to what can be read first. *)
  Lemma solid_first a : solid a = true -> forall o x, sits a o x -> ~ (o <= x < o + width a) -> forall c, reaches st o c -> isemp st c = false ->
    ~ reaches st o (next (X st c)) /\
    (o < next (X st c) < o + width a \/ (shortest a < 2 /\ (next (X st c) = x \/ (ends_in_class a = false /\ next (X st c) = o + width a)))).
  Proof.
    induction a as [cs|ts IH|ts IH|l IH|t mn mx IH|k b] using ast_ind'; intros HS o x H Hx c R Hc; try (cbn [solid] in HS; discriminate).
    - apply sits_class in H. assert (c = o).
      { inversion R as [|? s ? He _]; subst; [reflexivity|]. unfold E in He. rewrite H in He. destruct (class_E _ _ _ He). }
      subst c. rewrite H. cbn [new_transition next shortest width] in *. split; [|right; split; [lia|auto]].
      intros R2. inversion R2 as [|? s ? He _]; subst; [lia|]. unfold E in He. rewrite H in He. destruct (class_E _ _ _ He).
    - destruct (sits_alts _ _ _ HS H) as (He & H1 & H2 & H3). pose proof (solid_in _ HS _ _ H) as Hin.
      inversion R as [|? q ? Hq R2]; subst; [congruence|]. apply H1 in Hq. destruct Hq as (t & Ht). destruct (H2 _ _ Ht) as (Hs & St & Et).
      pose proof (arm_in _ _ _ _ Ht) as (Hti & Hb1 & Hb2). rewrite alts_width in *. pose proof (solid_width _ St) as Hw. rewrite Forall_forall in IH.
      destruct (IH t Hti St _ _ Hs ltac:(lia) c R2 Hc) as [N1 N2]. split.
      + intros R3. assert (Hr : o <= next (X st c) < o + S (width (Sequence ts))) by (apply (closed_reaches o (S (width (Sequence ts))) o); [exact Hin|lia|exact R3]).
        destruct N2 as [N2|[_ [N2|[N2 _]]]]; [|lia|congruence].
        inversion R3 as [Heq|? q' ? Hq' R4]; subst; [lia|]. apply H1 in Hq'. destruct Hq' as (t' & Ht'). destruct (H2 _ _ Ht') as (Hs' & St' & _).
        assert (Hb3 : q' <= q' < q' + width t') by (pose proof (solid_width _ St'); lia).
        pose proof (closed_reaches _ _ _ _ (solid_in _ St' _ _ Hs') Hb3 R4) as Hn. assert (q = q') by (eapply (arm_same ts (S o) t q Ht t' q'); [exact Ht'| |exact Hn]; lia). subst q'. exact (N1 R4).
      + destruct N2 as [N2|[N2 [N3|[N3 _]]]]; [left; lia| |congruence]. right. split; [|right; split; [reflexivity|exact N3]].
        cbn [shortest]. clear - Ht N2. pose proof (arm_in _ _ _ _ Ht) as [Hi _]. clear Ht. induction ts as [|u ts IH]; [destruct Hi|]. cbn [map]. destruct ts as [|u2 ts].
        * destruct Hi as [->|[]]. exact N2.
        * change (least (shortest u :: map shortest (u2 :: ts))) with (Nat.min (shortest u) (least (map shortest (u2 :: ts)))). destruct Hi as [->|Hi]; [lia|]. specialize (IH Hi). lia.
    - destruct ts as [|t ts]; [discriminate|]. apply solid_cons in HS. destruct HS as [S1 S2]. destruct (sits_cons _ _ _ _ S1 H) as [H1 H2].
      pose proof (Forall_inv IH S1 _ _ H1) as IHt. rewrite sum_cons in *. destruct ts as [|t2 ts].
      + change (width (Sequence [])) with 0 in *. rewrite Nat.add_0_r in *. destruct (IHt Hx c R Hc) as [N1 N2]. split; [exact N1|].
        change (shortest (Sequence [t])) with (shortest t + 0). rewrite Nat.add_0_r. change (ends_in_class (Sequence [t])) with (ends_in_class t). exact N2.
      + destruct S2 as [S2|S2]; [discriminate|]. pose proof (solid_width _ S2) as W2. pose proof (solid_width _ S1) as W1.
        destruct (IHt ltac:(lia) c R Hc) as [N1 N2]. split; [exact N1|]. left. destruct N2 as [N2|[_ [N2|[_ N2]]]]; lia.
  Qed.
End shape.
