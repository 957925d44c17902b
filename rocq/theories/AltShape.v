(** Which states of an automaton with alternatives and groups reach which, before the closure. *)
From Verif Require Export AltBuild.

Definition own (y : bool * state) (i : nat) : Prop := chars (snd y) <> EMPTY \/ forall j, mem (eps (snd y)) j = true -> j = i.

Lemma unrepeated_cons t t2 ts : ends_unrepeated (Sequence (t :: t2 :: ts)) = ends_unrepeated (Sequence (t2 :: ts)).
Proof. reflexivity. Qed.
Lemma unrepeated_width a : ends_unrepeated a = true -> 0 < width a.
Proof.
  induction a as [cs|l IH|l IH|l IH|t mn mx IH|k b] using ast_ind'; intros H; try discriminate H; [cbn; lia|rewrite alts_width; lia|].
  induction l as [|t l IHl]; [discriminate H|]. rewrite sum_cons. destruct l as [|t2 l].
  - pose proof (Forall_inv IH H). lia.
  - rewrite unrepeated_cons in H. pose proof (IHl (Forall_inv_tail IH) H). lia.
Qed.
Lemma class_unrepeated a : ends_in_class a = true -> ends_unrepeated a = true.
Proof.
  induction a as [cs|l IH|l IH|l IH|t mn mx IH|k b] using ast_ind'; intros H; try discriminate H; [reflexivity|].
  induction l as [|t l IHl]; [discriminate H|]. destruct l as [|t2 l].
  - exact (Forall_inv IH H).
  - rewrite unrepeated_cons. exact (IHl (Forall_inv_tail IH) H).
Qed.
Lemma ends_width a : ends_in_class a = true -> 0 < width a.
Proof. intros H. apply unrepeated_width, class_unrepeated, H. Qed.
Lemma starts_in ts : forall p j, In j (starts ts p) -> p <= j <= p + width (Sequence ts).
Proof.
  induction ts as [|t ts IH]; intros p j Hj; [destruct Hj|]. cbn [starts In] in Hj. rewrite sum_cons. destruct Hj as [<-|Hj]; [lia|]. apply IH in Hj. lia.
Qed.
Lemma starts_strict ts : forallb ends_in_class ts = true -> forall p j, In j (starts ts p) -> p <= j < p + width (Sequence ts).
Proof.
  induction ts as [|t ts IH]; intros He p j Hj; [destruct Hj|]. cbn [starts In forallb] in *. apply andb_true_iff in He. destruct He as [E1 E2]. rewrite sum_cons.
  pose proof (ends_width t E1). destruct Hj as [<-|Hj]; [lia|]. apply (IH E2) in Hj. lia.
Qed.
(** Where epsilon steps lead. *)
Lemma rep_in cs b k l i y j : rep_form cs b k l -> nth_error l i = Some y -> mem (eps y) j = true -> b <= j <= b + (2 + k).
Proof.
  intros (Hk & e & ef & -> & (u & Hu & He) & Hef) Hy Hj. destruct i as [|i]; cbn [nth_error] in Hy.
  - injection Hy as <-. cbn [eps] in Hj. apply He in Hj. lia.
  - destruct (Nat.lt_ge_cases i k) as [C|C].
    + rewrite nth_error_app1 in Hy by (rewrite copies_length; exact C). apply copies_nth in Hy. destruct Hy as [_ ->].
      cbn [new_transition eps] in Hj. rewrite mem_0 in Hj. discriminate.
    + rewrite nth_error_app2 in Hy by (rewrite copies_length; exact C). rewrite copies_length in Hy.
      destruct (i - k) as [|[|]] eqn:F; [|discriminate|discriminate]. cbn in Hy. injection Hy as <-. cbn [eps] in Hj. destruct Hef as [Hef|Hef]; apply Hef in Hj; lia.
Qed.
Lemma rep_next cs b k l i y : rep_form cs b k l -> nth_error l i = Some y -> own (false, y) (b + i) -> b <= next y < b + (2 + k).
Proof.
  intros (Hk & e & ef & -> & (u & Hu & He) & Hef) Hy Ho. destruct i as [|i]; cbn [nth_error] in Hy.
  - injection Hy as <-. destruct Ho as [Ho|Ho]; cbn [snd chars eps] in Ho; [congruence|]. exfalso. specialize (Ho (b + 1) ltac:(apply He; lia)). lia.
  - destruct (Nat.lt_ge_cases i k) as [C|C].
    + rewrite nth_error_app1 in Hy by (rewrite copies_length; exact C). apply copies_nth in Hy. destruct Hy as [_ ->]. cbn [new_transition next]. lia.
    + rewrite nth_error_app2 in Hy by (rewrite copies_length; exact C). rewrite copies_length in Hy.
      destruct (i - k) as [|[|]] eqn:F; [|discriminate|discriminate]. cbn in Hy. injection Hy as <-.
      destruct Ho as [Ho|Ho]; cbn [snd chars eps] in Ho; [congruence|]. exfalso. assert (Hm : mem ef (b + k + 2) = true) by (destruct Hef as [Hef|Hef]; apply Hef; auto). apply Ho in Hm. lia.
Qed.

(** The repetition of a class: nothing, one class, or the states of a repeated class. *)
Lemma rep_cases t mn mx o x l : one_class t = true -> lay (Repetition t mn mx) o x l ->
  (l = [] /\ mn = 0 /\ mx = Some 0 /\ width (Repetition t mn mx) = 0) \/
  (l = [(false, new_transition (class_of t) x)] /\ mn = 1 /\ width (Repetition t mn mx) = 1) \/
  (exists k l', l = map (pair false) l' /\ rep_form (class_of t) o k l' /\
    (forall y, nth_error l' 0 = Some y -> (mem (eps y) (o + k + 1) = true <-> mn = 0)) /\ width (Repetition t mn mx) = 2 + k).
Proof.
  intros Ho Hl. pose proof (one_class_width _ Ho) as Hw. cbn [lay width] in *. rewrite Ho in Hl. rewrite Hw, ?Nat.mul_1_r.
  assert (HR : forall k, (exists l', l = map (pair false) l' /\ rep_form (class_of t) o k l' /\ (forall y, nth_error l' 0 = Some y -> (mem (eps y) (o + k + 1) = true <-> mn = 0))) ->
    exists k' l', l = map (pair false) l' /\ rep_form (class_of t) o k' l' /\ (forall y, nth_error l' 0 = Some y -> (mem (eps y) (o + k' + 1) = true <-> mn = 0)) /\ 2 + k = 2 + k').
  { intros k (l' & H1 & H2 & H3). exists k, l'. auto. }
  destruct mn as [|[|mn]]; [destruct mx as [[|m]|]|destruct mx as [[|[|m]]|]|]; try (right; right; apply HR; exact Hl); [left|right; left]; repeat split; auto.
Qed.

Definition inside (a : ast) : Prop := forall o x l, lay a o x l -> forall k y j, nth_error l k = Some y -> mem (eps (snd y)) j = true ->
  o <= j <= o + width a /\ (ends_unrepeated a = true -> j < o + width a).
Lemma seq_in ts : Forall inside ts -> inside (Sequence ts).
Proof.
  intros IH o x l Hl k y j Hy Hj. apply lay_Sequence in Hl. revert o l k Hl Hy. induction ts as [|t ts IHts]; intros o l k Hl Hy; [cbn in Hl; subst l; destruct k; discriminate|].
  cbn [lay_seq] in *. destruct Hl as (l1 & l2 & -> & H1 & H2). rewrite sum_cons.
  destruct (Nat.lt_ge_cases k (length l1)) as [C|C].
  - rewrite nth_error_app1 in Hy by exact C. destruct (Forall_inv IH _ _ _ H1 _ _ _ Hy Hj) as [G1 G2]. split; [lia|]. intros He. destruct ts as [|t2 ts].
    + specialize (G2 He). lia.
    + rewrite unrepeated_cons in He. apply unrepeated_width in He. lia.
  - rewrite nth_error_app2 in Hy by exact C. destruct (IHts (Forall_inv_tail IH) _ _ _ H2 Hy) as [G1 G2]. split; [lia|]. intros He. destruct ts as [|t2 ts].
    + cbn in H2. subst l2. destruct (k - length l1); discriminate.
    + rewrite unrepeated_cons in He. specialize (G2 He). lia.
Qed.
(** The states of a group. *)
Lemma group_at w mn k o l' l i y : group_form w mn k o l' l -> length l' = k * w -> nth_error l i = Some y ->
  (i = 0 /\ y = (negb (mn =? k), mkState (eps (snd y)) EMPTY 0) /\
   forall j, mem (eps (snd y)) j = true <-> (exists i, i < k /\ i <= k - mn /\ j = S o + i * w) \/ (mn = 0 /\ j = S o + k * w)) \/
  (exists i', i = S i' /\ i' < k * w /\ nth_error l' i' = Some y) \/
  (i = S (k * w) /\ y = (false, mkState (eps (snd y)) EMPTY 0) /\ forall j, mem (eps (snd y)) j = true <-> j = S o + k * w + 1).
Proof.
  intros (e & ef & -> & He & Hef) Hlen Hy. destruct i as [|i]; cbn [nth_error] in Hy; [injection Hy as <-; left; auto|]. right.
  destruct (Nat.lt_ge_cases i (length l')) as [C|C].
  - rewrite nth_error_app1 in Hy by exact C. left. exists i. split; [reflexivity|]. split; [lia|exact Hy].
  - rewrite nth_error_app2 in Hy by exact C. destruct (i - length l') as [|[|]] eqn:F; [|discriminate|discriminate]. cbn in Hy. injection Hy as <-. right.
    split; [lia|]. split; [reflexivity|exact Hef].
Qed.
Lemma copies_branching t m : branching t = true -> branching (Sequence (repeat t m)) = true.
Proof. intros H. cbn [branching]. apply forallb_repeat. exact H. Qed.
Lemma copies_length' t m o l : branching t = true -> lay_seq (repeat t m) o (o + m * width t) l -> length l = m * width t.
Proof.
  intros Hb Hl. rewrite <- repeat_width. eapply (lay_length (Sequence (repeat t m))); [apply copies_branching; exact Hb|]. apply lay_Sequence. exact Hl.
Qed.
Lemma mul_lt i k w : i < k -> i * w + w <= k * w.
Proof. intros H. nia. Qed.

Lemma lay_in a : branching a = true -> inside a.
Proof.
  induction a as [cs|ts IH|ts IH|ts IH|t mn mx IH|kd b] using ast_ind'; intros Hb; [intros o x l Hl k y j Hy Hj|intros o x l Hl k y j Hy Hj| | |intros o x l Hl k y j Hy Hj|]; try discriminate.
  - cbn in Hl. subst l. destruct k as [|[|]]; [|discriminate|discriminate]. injection Hy as <-. cbn [snd new_transition eps] in Hj. rewrite mem_0 in Hj. discriminate.
  - apply lay_Alternatives in Hl. destruct Hl as (e & l' & -> & He & Hl). rewrite alts_width in *.
    cbn [branching] in Hb. apply andb_true_iff in Hb. destruct Hb as [Hb E1]. apply andb_true_iff in Hb. destruct Hb as [_ B1].
    enough (o <= j < o + S (width (Sequence ts))) by (split; [lia|intros _; lia]).
    destruct k as [|k]; cbn [nth_error] in Hy.
    + injection Hy as <-. cbn [snd eps] in Hj. apply He in Hj. apply (starts_strict ts E1) in Hj. lia.
    + assert (HG : forall z ts p l k, Forall (fun a => branching a = true -> inside a) ts -> forallb branching ts = true -> forallb ends_in_class ts = true ->
        lay_alts ts p z l -> nth_error l k = Some y -> p <= j < p + width (Sequence ts)).
      { clear - Hj. intros z. induction ts as [|t ts IHts]; intros p l k IH Hb He Hl Hy; [cbn in Hl; subst l; destruct k; discriminate|].
        cbn [lay_alts forallb] in *. apply andb_true_iff in Hb, He. destruct Hb as [B1 B2], He as [E1 E2]. destruct Hl as (l1 & l2 & -> & H1 & H2). rewrite sum_cons.
        destruct (Nat.lt_ge_cases k (length l1)) as [C|C].
        - rewrite nth_error_app1 in Hy by exact C. destruct (Forall_inv IH B1 _ _ _ H1 _ _ _ Hy Hj) as [G1 G2]. specialize (G2 (class_unrepeated _ E1)). lia.
        - rewrite nth_error_app2 in Hy by exact C. pose proof (IHts _ _ _ (Forall_inv_tail IH) B2 E2 H2 Hy). lia. }
      pose proof (HG _ _ _ _ _ IH B1 E1 Hl Hy). lia.
  - apply seq_in. cbn [branching] in Hb. rewrite forallb_forall in Hb. rewrite Forall_forall in *. intros t Ht. apply IH; auto.
  - split; [|discriminate]. destruct (rep_kind _ _ _ Hb) as [[Ho _]|(Ho & Hbt & m & -> & Hm & _)].
    + destruct (rep_cases _ _ _ _ _ _ Ho Hl) as [(-> & _ & _ & Hw)|[(-> & _ & Hw)|(r & l' & -> & Hr & _ & Hw)]]; rewrite Hw.
      * destruct k; discriminate.
      * destruct k as [|[|]]; [|discriminate|discriminate]. injection Hy as <-. cbn [snd new_transition eps] in Hj. rewrite mem_0 in Hj. discriminate.
      * rewrite nth_error_map in Hy. destruct (nth_error l' k) as [z|] eqn:Hz; [|discriminate]. cbn in Hy. injection Hy as <-. eapply rep_in; eauto.
    + specialize (IH Hbt). destruct (group_cases _ _ _ _ _ _ Ho Hm Hl) as [(-> & _ & _ & Hw)|[(_ & _ & Hl' & Hw)|(Hm1 & Hw & l' & Hg & Hs)]]; rewrite Hw.
      * destruct k; discriminate.
      * apply (IH _ _ _ Hl' _ _ _ Hy Hj).
      * destruct (group_at _ _ _ _ _ _ _ _ Hg (copies_length' _ _ _ _ Hbt Hs) Hy) as [(-> & _ & He)|[(i & -> & Hi & Hy')|(-> & _ & He)]].
        -- apply He in Hj. destruct Hj as [(i & I1 & I2 & ->)|[_ ->]]; [pose proof (mul_lt i m (width t) I1); lia|lia].
        -- apply lay_Sequence in Hs. destruct (seq_in _ (Forall_repeat' _ t m IH) _ _ _ Hs _ _ _ Hy' Hj) as [G _]. rewrite repeat_width in G. lia.
        -- apply He in Hj. lia.
Qed.

Definition ahead (a : ast) : Prop := forall o x l, lay a o x l -> forall k y, nth_error l k = Some y -> fst y = false -> own y (o + k) ->
  next (snd y) = x \/ (o <= next (snd y) <= o + width a /\ (ends_in_class a = true -> next (snd y) < o + width a)).
Lemma seq_next ts : forallb branching ts = true -> Forall ahead ts -> ahead (Sequence ts).
Proof.
  intros Hb IH o x l Hl k y Hy Hf Ho. apply lay_Sequence in Hl. revert o l k Hl Hy Ho. induction ts as [|t ts IHts]; intros o l k Hl Hy Ho; [cbn in Hl; subst l; destruct k; discriminate|].
  cbn [lay_seq forallb] in *. apply andb_true_iff in Hb. destruct Hb as [B1 B2]. destruct Hl as (l1 & l2 & -> & H1 & H2). rewrite sum_cons.
  pose proof (lay_length t B1 _ _ _ H1) as Hl1. destruct (Nat.lt_ge_cases k (length l1)) as [C|C].
  - rewrite nth_error_app1 in Hy by exact C. pose proof (Forall_inv IH _ _ _ H1 _ _ Hy Hf Ho) as G. destruct ts as [|t2 ts].
    + destruct G as [G|[G1 G2]]; [auto|]. right. split; [lia|]. intros He. specialize (G2 He). lia.
    + right. assert (Hn : o <= next (snd y) <= o + width t) by (destruct G as [G|G]; lia). split; [lia|]. intros He.
      pose proof (ends_width (Sequence (t2 :: ts)) He). lia.
  - rewrite nth_error_app2 in Hy by exact C. replace (o + k) with (o + width t + (k - length l1)) in Ho by lia.
    destruct (IHts B2 (Forall_inv_tail IH) _ _ _ H2 Hy Ho) as [G|[G1 G2]]; [auto|]. right. split; [lia|]. intros He. destruct ts as [|t2 ts].
    + cbn in H2. subst l2. destruct (k - length l1); discriminate.
    + specialize (G2 He). lia.
Qed.
Lemma lay_next a : branching a = true -> ahead a.
Proof.
  induction a as [cs|ts IH|ts IH|ts IH|t mn mx IH|kd b] using ast_ind'; intros Hb; [intros o x l Hl k y Hy Hf Ho|intros o x l Hl k y Hy Hf Ho| | |intros o x l Hl k y Hy Hf Ho|]; try discriminate.
  - cbn in Hl. subst l. destruct k as [|[|]]; [|discriminate|discriminate]. injection Hy as <-. left. reflexivity.
  - right. split; [|discriminate]. apply lay_Alternatives in Hl. destruct Hl as (e & l' & -> & He & Hl). rewrite alts_width in *.
    cbn [branching] in Hb. apply andb_true_iff in Hb. destruct Hb as [Hb E1]. apply andb_true_iff in Hb. destruct Hb as [_ B1].
    destruct k as [|k]; cbn [nth_error] in Hy; [injection Hy as <-; discriminate|].
    assert (HG : forall z ts p l k, Forall (fun a => branching a = true -> ahead a) ts -> forallb branching ts = true -> lay_alts ts p z l -> nth_error l k = Some y ->
        own y (p + k) -> next (snd y) = z \/ p <= next (snd y) <= p + width (Sequence ts)).
    { clear - Hf. intros z. induction ts as [|t ts IHts]; intros p l k IH Hb Hl Hy Ho; [cbn in Hl; subst l; destruct k; discriminate|].
      cbn [lay_alts forallb] in *. apply andb_true_iff in Hb. destruct Hb as [B1 B2]. destruct Hl as (l1 & l2 & -> & H1 & H2). rewrite sum_cons.
      pose proof (lay_length t B1 _ _ _ H1) as Hl1. destruct (Nat.lt_ge_cases k (length l1)) as [C|C].
      - rewrite nth_error_app1 in Hy by exact C. destruct (Forall_inv IH B1 _ _ _ H1 _ _ Hy Hf Ho) as [G|G]; [auto|right; lia].
      - rewrite nth_error_app2 in Hy by exact C. replace (p + k) with (p + width t + (k - length l1)) in Ho by lia.
        pose proof (IHts _ _ _ (Forall_inv_tail IH) B2 H2 Hy Ho) as [G|G]; [auto|right; lia]. }
    replace (o + S k) with (S o + k) in Ho by lia.
    destruct (HG _ _ _ _ _ IH B1 Hl Hy Ho); lia.
  - cbn [branching] in Hb. apply seq_next; [exact Hb|]. rewrite forallb_forall in Hb. rewrite Forall_forall in *. intros t Ht. apply IH; auto.
  - destruct (rep_kind _ _ _ Hb) as [[H1 _]|(H1 & Hbt & m & -> & Hm & _)].
    + destruct (rep_cases _ _ _ _ _ _ H1 Hl) as [(-> & _ & _ & Hw)|[(-> & _ & Hw)|(r & l' & -> & Hr & _ & Hw)]]; rewrite Hw.
      * destruct k; discriminate.
      * destruct k as [|[|]]; [|discriminate|discriminate]. injection Hy as <-. left. reflexivity.
      * right. split; [|discriminate]. rewrite nth_error_map in Hy. destruct (nth_error l' k) as [z|] eqn:Hz; [|discriminate]. cbn in Hy. injection Hy as <-.
        pose proof (rep_next _ _ _ _ _ _ Hr Hz Ho). cbn [snd]. lia.
    + specialize (IH Hbt). destruct (group_cases _ _ _ _ _ _ H1 Hm Hl) as [(-> & _ & _ & Hw)|[(_ & _ & Hl' & Hw)|(Hm1 & Hw & l' & Hg & Hs)]]; rewrite Hw.
      * destruct k; discriminate.
      * destruct (IH _ _ _ Hl' _ _ Hy Hf Ho) as [G|[G _]]; [auto|]. right. split; [exact G|discriminate].
      * right. split; [|discriminate]. destruct (group_at _ _ _ _ _ _ _ _ Hg (copies_length' _ _ _ _ Hbt Hs) Hy) as [(-> & Ey & He)|[(i & -> & Hi & Hy')|(-> & Ey & He)]].
        -- exfalso. destruct Ho as [Ho|Ho]; [rewrite Ey in Ho; cbn [snd chars] in Ho; congruence|]. specialize (Ho (S o) ltac:(apply He; left; exists 0; lia)). lia.
        -- apply lay_Sequence in Hs. replace (o + S i) with (S o + i) in Ho by lia.
           destruct (seq_next _ (forallb_repeat branching t m Hbt) (Forall_repeat' _ t m IH) _ _ _ Hs _ _ Hy' Hf Ho) as [G|[G _]]; rewrite ?repeat_width in G; lia.
        -- exfalso. destruct Ho as [Ho|Ho]; [rewrite Ey in Ho; cbn [snd chars] in Ho; congruence|]. specialize (Ho _ (proj2 (He _) eq_refl)). lia.
Qed.

(** ** The whole automaton *)
Section whole.
  Variable A : list (bool * state).
  Definition At (i : nat) : bool * state := nth i A (false, state_new).
  Definition bar (i : nat) : bool := fst (At i).
  Definition Q (i : nat) : state := snd (At i).
  Definition Ec (i j : nat) : Prop := mem (eps (Q i)) j = true.
  Definition occ (o : nat) (l : list (bool * state)) : Prop := forall k y, nth_error l k = Some y -> nth_error A (o + k) = Some y.

  Lemma occ_At o l k y : occ o l -> nth_error l k = Some y -> At (o + k) = y.
  Proof. intros Ho Hy. unfold At. apply nth_error_nth. apply Ho. exact Hy. Qed.
  Lemma occ_app o l1 l2 : occ o (l1 ++ l2) -> occ o l1 /\ occ (o + length l1) l2.
  Proof.
    intros Ho. split; intros k y Hy.
    - apply Ho. rewrite nth_error_app1; [exact Hy|]. eapply nth_lt; exact Hy.
    - rewrite <- Nat.add_assoc. apply Ho. rewrite nth_error_app2 by lia. rewrite Nat.add_comm, Nat.add_sub. exact Hy.
  Qed.
  Lemma occ_at o l i : occ o l -> o <= i < o + length l -> exists y, nth_error l (i - o) = Some y /\ At i = y.
  Proof.
    intros Ho Hi. destruct (nth_some l (i - o) ltac:(lia)) as [y Hy]. exists y. split; [exact Hy|].
    pose proof (occ_At _ _ _ _ Ho Hy) as G. replace (o + (i - o)) with i in G by lia. exact G.
  Qed.

  (** Nobody before [q], except in front of alternatives and groups, steps beyond [q]; nobody from [q] on steps before it. *)
  Definition LW (q : nat) : Prop := forall k j, k < q -> bar k = false -> Ec k j -> j <= q.
  Definition LS (q : nat) : Prop := forall k j, k < q -> bar k = false -> Ec k j -> j < q.
  Definition RC (q : nat) : Prop := forall k j, q <= k -> Ec k j -> q <= j.
  Definition gap (q : nat) : Prop := LS q /\ RC q.

  Lemma seg_in a o x l i j : branching a = true -> lay a o x l -> occ o l -> o <= i < o + width a -> Ec i j -> o <= j <= o + width a /\ (ends_unrepeated a = true -> j < o + width a).
  Proof.
    intros Hb Hl Ho Hi Hj. pose proof (lay_length a Hb _ _ _ Hl) as Hw. destruct (occ_at o l i Ho ltac:(lia)) as (y & Hy & E0).
    eapply (lay_in a Hb o x l Hl); [exact Hy|]. unfold Ec, Q in Hj. rewrite E0 in Hj. exact Hj.
  Qed.
  Lemma seg_LW a o x l : branching a = true -> lay a o x l -> occ o l -> LW o -> LW (o + width a).
  Proof.
    intros Hb Hl Ho HL k j Hk Hf Hj. destruct (Nat.lt_ge_cases k o) as [C|C]; [pose proof (HL k j C Hf Hj); lia|].
    destruct (seg_in a o x l k j Hb Hl Ho ltac:(lia) Hj). lia.
  Qed.
  Lemma seg_LS a o x l : branching a = true -> ends_unrepeated a = true -> lay a o x l -> occ o l -> LW o -> LS (o + width a).
  Proof.
    intros Hb He Hl Ho HL k j Hk Hf Hj. destruct (Nat.lt_ge_cases k o) as [C|C].
    - pose proof (HL k j C Hf Hj). pose proof (unrepeated_width a He). lia.
    - destruct (seg_in a o x l k j Hb Hl Ho ltac:(lia) Hj). auto.
  Qed.
  Lemma seg_RC a o x l : branching a = true -> lay a o x l -> occ o l -> RC (o + width a) -> RC o.
  Proof.
    intros Hb Hl Ho HR k j Hk Hj. destruct (Nat.lt_ge_cases k (o + width a)) as [C|C].
    - destruct (seg_in a o x l k j Hb Hl Ho ltac:(lia) Hj). lia.
    - pose proof (HR k j C Hj). lia.
  Qed.
  Lemma LS_LW q : LS q -> LW q.
  Proof. intros H k j H1 H2 H3. specialize (H k j H1 H2 H3). lia. Qed.

  (** Several alternatives. *)
  Lemma alts_occ t (ts : list ast) p x l1 l2 : branching t = true -> lay t p x l1 -> occ p (l1 ++ l2) -> occ p l1 /\ occ (p + width t) l2.
  Proof. intros Hb Hl Ho. apply occ_app in Ho. rewrite (lay_length t Hb _ _ _ Hl) in Ho. exact Ho. Qed.
  Lemma alts_RC ts : forallb branching ts = true -> forall p x l, lay_alts ts p x l -> occ p l -> RC (p + width (Sequence ts)) -> RC p.
  Proof.
    induction ts as [|t ts IH]; intros Hb p x l Hl Ho HR; [replace p with (p + width (Sequence [])) by (cbn; lia); exact HR|].
    cbn [forallb lay_alts] in *. apply andb_true_iff in Hb. destruct Hb as [B1 B2]. destruct Hl as (l1 & l2 & -> & H1 & H2).
    destruct (alts_occ t ts p x l1 l2 B1 H1 Ho) as [O1 O2]. eapply (seg_RC t); eauto. eapply (IH B2 _ x l2); eauto. rewrite sum_cons, Nat.add_assoc in HR. exact HR.
  Qed.
  Lemma alts_LS ts : forallb branching ts = true -> forallb ends_in_class ts = true -> forall p x l, lay_alts ts p x l -> occ p l -> LS p -> LS (p + width (Sequence ts)).
  Proof.
    induction ts as [|t ts IH]; intros Hb He p x l Hl Ho HR; [replace (p + width (Sequence [])) with p by (cbn; lia); exact HR|].
    cbn [forallb lay_alts] in *. apply andb_true_iff in Hb, He. destruct Hb as [B1 B2], He as [E1 E2]. destruct Hl as (l1 & l2 & -> & H1 & H2).
    destruct (alts_occ t ts p x l1 l2 B1 H1 Ho) as [O1 O2]. rewrite sum_cons, Nat.add_assoc. eapply (IH B2 E2 _ x l2); eauto.
    eapply (seg_LS t); eauto using class_unrepeated. apply LS_LW. exact HR.
  Qed.
  Lemma alts_gaps ts : forallb branching ts = true -> forallb ends_in_class ts = true -> forall p x l, lay_alts ts p x l -> occ p l -> LS p -> RC (p + width (Sequence ts)) ->
    forall s, In s (starts ts p) -> gap s /\ p <= s < p + width (Sequence ts).
  Proof.
    induction ts as [|t ts IH]; intros Hb He p x l Hl Ho HL HR s Hs; [destruct Hs|].
    assert (HRp : RC p) by (eapply alts_RC; eauto).
    cbn [forallb lay_alts] in *. apply andb_true_iff in Hb, He. destruct Hb as [B1 B2], He as [E1 E2]. destruct Hl as (l1 & l2 & -> & H1 & H2).
    destruct (alts_occ t ts p x l1 l2 B1 H1 Ho) as [O1 O2]. rewrite sum_cons in *. pose proof (ends_width t E1). destruct Hs as [<-|Hs].
    - split; [split; assumption|lia].
    - rewrite Nat.add_assoc in HR. destruct (IH B2 E2 _ x l2 H2 O2 ltac:(eapply (seg_LS t); eauto using class_unrepeated; apply LS_LW; exact HL) HR s Hs). split; [assumption|lia].
  Qed.
  Lemma alts_closed ts : forallb branching ts = true -> forallb ends_in_class ts = true -> forall p x l, lay_alts ts p x l -> occ p l ->
    forall i, p <= i < p + width (Sequence ts) -> (forall j, Ec i j -> p <= j < p + width (Sequence ts)) /\
      (bar i = false -> own (At i) i -> next (Q i) = x \/ p <= next (Q i) < p + width (Sequence ts)).
  Proof.
    induction ts as [|t ts IH]; intros Hb He p x l Hl Ho i Hi; [cbn in Hi; lia|].
    cbn [forallb lay_alts] in *. apply andb_true_iff in Hb, He. destruct Hb as [B1 B2], He as [E1 E2]. destruct Hl as (l1 & l2 & -> & H1 & H2).
    destruct (alts_occ t ts p x l1 l2 B1 H1 Ho) as [O1 O2]. rewrite sum_cons in *. destruct (Nat.lt_ge_cases i (p + width t)) as [C|C].
    - split.
      + intros j Hj. destruct (seg_in t p x l1 i j B1 H1 O1 ltac:(lia) Hj) as [G1 G2]. specialize (G2 (class_unrepeated _ E1)). lia.
      + intros Hf Hown. pose proof (lay_length t B1 _ _ _ H1) as Hw. destruct (occ_at p l1 i O1 ltac:(lia)) as (y & Hy & E0).
        unfold bar, Q in *. rewrite E0 in *. replace i with (p + (i - p)) in Hown by lia.
        destruct (lay_next t B1 p x l1 H1 (i - p) y Hy Hf Hown) as [G|[G1 G2]]; [auto|]. specialize (G2 E1). right. lia.
    - destruct (IH B2 E2 _ x l2 H2 O2 i ltac:(lia)) as [G1 G2]. split.
      + intros j Hj. specialize (G1 j Hj). lia.
      + intros Hf Hown. destruct (G2 Hf Hown) as [G|G]; [auto|right; lia].
  Qed.


  (** ** Epsilon steps *)
  Inductive er : nat -> nat -> Prop :=
  | er_refl i : er i i
  | er_step i j k : Ec i j -> er j k -> er i k.
  Lemma er_one i j : Ec i j -> er i j.
  Proof. intros H. apply (er_step i j j H). constructor. Qed.
  Lemma er_trans i j k : er i j -> er j k -> er i k.
  Proof. intros H1 H2. induction H1 as [i|i h j He _ IH]; [exact H2|]. apply (er_step i h k He). apply IH. exact H2. Qed.
  Lemma er_inv i k : er i k -> k = i \/ exists j, Ec i j /\ er j k.
  Proof. intros H. inversion H as [|i' j k' H1 H2]; subst; [auto|right; exists j; auto]. Qed.
  Lemma er_range p q i u : (forall i j, p <= i < q -> Ec i j -> p <= j <= q) -> er i u -> p <= i < q -> (p <= u < q /\ er i u) \/ er q u.
  Proof.
    intros Hc H. induction H as [i|i j k He H IH]; intros Hi; [left; split; [exact Hi|constructor]|]. pose proof (Hc i j Hi He) as Hj.
    destruct (Nat.eq_dec j q) as [->|Hne]; [auto|]. destruct (IH ltac:(lia)) as [[G1 G2]|G]; [left; split; [exact G1|eapply er_step; eauto]|auto].
  Qed.
  Lemma er_closed p q i u : (forall i j, p <= i < q -> Ec i j -> p <= j < q) -> er i u -> p <= i < q -> p <= u < q.
  Proof. intros Hc H. induction H as [i|i j k He H IH]; intros Hi; [exact Hi|]. apply IH. apply (Hc i j Hi He). Qed.
  Lemma er_dead i u : eps (Q i) = 0%N -> er i u -> u = i.
  Proof. intros H H'. apply er_inv in H'. destruct H' as [->|(j & Hj & _)]; [reflexivity|]. unfold Ec in Hj. rewrite H, mem_0 in Hj. discriminate. Qed.
  Lemma seg_er a o x l u : branching a = true -> lay a o x l -> occ o l -> er o u -> (o <= u < o + width a /\ er o u) \/ er (o + width a) u.
  Proof.
    intros Hb Hl Ho H. destruct (Nat.eq_dec (width a) 0) as [E0|E0]; [right; rewrite E0, Nat.add_0_r; exact H|].
    apply er_range; [|exact H|lia]. intros i j Hi Hj. apply (seg_in a o x l i j Hb Hl Ho Hi Hj).
  Qed.
  Lemma seg_strict a o x l u : branching a = true -> ends_unrepeated a = true -> lay a o x l -> occ o l -> er o u -> o <= u < o + width a.
  Proof.
    intros Hb He Hl Ho H. apply (er_closed o (o + width a) o u); [|exact H|pose proof (unrepeated_width a He); lia]. intros i j Hi Hj.
    destruct (seg_in a o x l i j Hb Hl Ho Hi Hj) as [G1 G2]. specialize (G2 He). lia.
  Qed.

  (** The parts of a group. *)
  Lemma group_shape w mn m o l' l : group_form w mn m o l' l -> length l' = m * w -> occ o l ->
    bar o = negb (mn =? m) /\ chars (Q o) = EMPTY /\
    (forall j, Ec o j <-> (exists i, i < m /\ i <= m - mn /\ j = S o + i * w) \/ (mn = 0 /\ j = S o + m * w)) /\
    occ (S o) l' /\ bar (S o + m * w) = false /\ chars (Q (S o + m * w)) = EMPTY /\ forall j, Ec (S o + m * w) j <-> j = S o + m * w + 1.
  Proof.
    intros (e & ef & -> & He & Hef) Hlen Ho.
    change ((negb (mn =? m), mkState e EMPTY 0) :: l' ++ [(false, mkState ef EMPTY 0)]) with ([(negb (mn =? m), mkState e EMPTY 0)] ++ l' ++ [(false, mkState ef EMPTY 0)]) in Ho.
    apply occ_app in Ho. destruct Ho as [O1 O2]. cbn [length] in O2. rewrite Nat.add_1_r in O2. apply occ_app in O2. destruct O2 as [O2 O3]. rewrite Hlen in O3.
    assert (E1 : At o = (negb (mn =? m), mkState e EMPTY 0)) by (rewrite <- (Nat.add_0_r o); eapply occ_At; [exact O1|reflexivity]).
    assert (E3 : At (S o + m * w) = (false, mkState ef EMPTY 0)) by (rewrite <- (Nat.add_0_r (S o + m * w)); eapply occ_At; [exact O3|reflexivity]).
    unfold bar, Ec, Q. rewrite E1, E3. cbn [fst snd chars eps]. split; [reflexivity|]. split; [reflexivity|]. split; [exact He|]. split; [exact O2|]. split; [reflexivity|]. split; [reflexivity|exact Hef].
  Qed.
  Lemma copy_at t m : branching t = true -> forall p l, lay_nat (repeat t m) p l -> occ p l -> forall i, i < m ->
    exists l1, lay t (p + i * width t) (p + i * width t + width t) l1 /\ occ (p + i * width t) l1.
  Proof.
    intros Hb. induction m as [|m IH]; intros p l Hl Ho i Hi; [lia|]. cbn [repeat lay_nat] in Hl. destruct Hl as (l1 & l2 & -> & H1 & H2).
    destruct (alts_occ t (repeat t m) p _ l1 l2 Hb H1 Ho) as [O1 O2]. destruct i as [|i].
    - exists l1. cbn [Nat.mul]. rewrite Nat.add_0_r. auto.
    - destruct (IH _ _ H2 O2 i ltac:(lia)) as (l3 & G1 & G2). exists l3. cbn [Nat.mul]. rewrite !Nat.add_assoc. auto.
  Qed.

  (** The first state of a pattern that does not match the empty text does not reach its end. *)
  Definition stopping (a : ast) : Prop := 1 <= shortest a -> forall o x l, lay a o x l -> occ o l -> forall u, er o u -> o <= u < o + width a.
  Lemma short_cons t ts : shortest (Sequence (t :: ts)) = shortest t + shortest (Sequence ts).
  Proof. reflexivity. Qed.
  Lemma seq_stops ts : forallb branching ts = true -> Forall stopping ts -> stopping (Sequence ts).
  Proof.
    intros Hb IH Hs o x l Hl Ho u Hu. apply lay_Sequence in Hl. revert o l Hs Hl Ho Hu. induction ts as [|t ts IHts]; intros o l Hs Hl Ho Hu; [cbn in Hs; lia|].
    cbn [lay_seq forallb] in *. apply andb_true_iff in Hb. destruct Hb as [B1 B2]. destruct Hl as (l1 & l2 & -> & H1 & H2). rewrite sum_cons.
    destruct (alts_occ t ts o _ l1 l2 B1 H1 Ho) as [O1 O2]. rewrite short_cons in Hs. destruct (Nat.lt_ge_cases 0 (shortest t)) as [C|C].
    - pose proof (Forall_inv IH C o _ l1 H1 O1 u Hu). lia.
    - destruct (seg_er t o _ l1 u B1 H1 O1 Hu) as [[G _]|G]; [lia|]. pose proof (IHts B2 (Forall_inv_tail IH) (o + width t) l2 ltac:(lia) H2 O2 G). lia.
  Qed.
  Lemma stops a : branching a = true -> stopping a.
  Proof.
    induction a as [cs|ts IH|ts IH|ts IH|t mn mx IH|kd b] using ast_ind'; intros Hb; try discriminate.
    - intros _ o x l Hl Ho u Hu. apply (seg_strict _ o x l u Hb eq_refl Hl Ho Hu).
    - intros _ o x l Hl Ho u Hu. apply (seg_strict _ o x l u Hb eq_refl Hl Ho Hu).
    - cbn [branching] in Hb. apply seq_stops; [exact Hb|]. rewrite forallb_forall in Hb. rewrite Forall_forall in *. intros t Ht. apply IH; auto.
    - intros Hs o x l Hl Ho u Hu. cbn [shortest] in Hs. assert (M1 : 1 <= mn) by (destruct mn; cbn in Hs; lia). assert (S1 : 1 <= shortest t) by (destruct (shortest t); [rewrite Nat.mul_0_r in Hs; lia|lia]). clear Hs.
      destruct (rep_kind _ _ _ Hb) as [[H1 _]|(H1 & Hbt & m & -> & Hm & _)].
      + destruct (rep_cases _ _ _ _ _ _ H1 Hl) as [(_ & F & _)|[(-> & _ & Hw)|(r & l' & -> & Hr & Hz & Hw)]]; [lia| |]; rewrite Hw.
        * assert (E0 : At o = (false, new_transition (class_of t) x)) by (rewrite <- (Nat.add_0_r o); eapply occ_At; [exact Ho|reflexivity]).
          apply er_dead in Hu; [lia|]. unfold Q. rewrite E0. reflexivity.
        * pose proof (rep_form_length _ _ _ _ Hr) as Hlen. destruct Hr as (Hr1 & e & ef & -> & (v & Hv & He) & _). specialize (Hz _ eq_refl). cbn [eps] in Hz.
          assert (Hv' : v <= r). { destruct (Nat.le_gt_cases v r) as [C|C]; [exact C|]. assert (mn = 0) by (apply Hz; apply He; lia). lia. }
          assert (E0 : At o = (false, mkState e EMPTY 0)) by (rewrite <- (Nat.add_0_r o); eapply occ_At; [exact Ho|reflexivity]).
          apply er_inv in Hu. destruct Hu as [->|(j & Hj & Hu)]; [lia|]. unfold Ec, Q in Hj. rewrite E0 in Hj. cbn [snd eps] in Hj. apply He in Hj.
          enough (Hd : eps (Q j) = 0%N) by (apply er_dead in Hu; [lia|exact Hd]).
          assert (Hj1 : j - o - 1 < r) by lia. destruct (nth_some (copies (class_of t) (S o) r) (j - o - 1)) as [z Hy]; [rewrite copies_length; exact Hj1|].
          assert (Ej : At (o + S (j - o - 1)) = (false, z)).
          { eapply occ_At; [exact Ho|]. cbn [map nth_error]. rewrite map_app, nth_error_app1 by (rewrite map_length, copies_length; exact Hj1). rewrite nth_error_map, Hy. reflexivity. }
          replace (o + S (j - o - 1)) with j in Ej by lia. unfold Q. rewrite Ej. apply copies_nth in Hy. destruct Hy as [_ ->]. reflexivity.
      + specialize (IH Hbt S1). destruct (group_cases _ _ _ _ _ _ H1 Hm Hl) as [(_ & F & _)|[(_ & _ & Hl' & Hw)|(Hm1 & Hw & l' & Hg & Hs)]]; [lia| |]; rewrite Hw.
        * apply (IH _ _ _ Hl' Ho u Hu).
        * destruct (group_shape _ _ _ _ _ _ Hg (copies_length' _ _ _ _ Hbt Hs) Ho) as (_ & _ & He & Oc & _).
          apply er_inv in Hu. destruct Hu as [->|(j & Hj & Hu)]; [lia|]. apply He in Hj. destruct Hj as [(i & I1 & I2 & ->)|[F _]]; [|lia].
          rewrite <- repeat_width in Hs. apply nat_seq in Hs. destruct (copy_at t m Hbt _ _ Hs Oc i I1) as (l1 & L1 & L2).
          pose proof (IH _ _ _ L1 L2 u Hu). pose proof (mul_lt i m (width t) I1). lia.
  Qed.

  (** The first state of a pattern that matches the empty text reaches its end. *)
  Lemma class_shortest a : ends_in_class a = true -> 1 <= shortest a.
  Proof.
    induction a as [cs|l IH|l IH|l IH|t mn mx IH|k b] using ast_ind'; intros H; try discriminate H; [cbn; lia|].
    induction l as [|t l IHl]; [discriminate H|]. rewrite short_cons. destruct l as [|t2 l].
    - pose proof (Forall_inv IH H). lia.
    - pose proof (IHl (Forall_inv_tail IH) H). lia.
  Qed.
  Lemma least_in x l : In x l -> least l <= x.
  Proof.
    induction l as [|y l IH]; intros H; [destruct H|]. destruct l as [|z l]; [destruct H as [->|[]]; cbn; lia|].
    change (least (y :: z :: l)) with (Nat.min y (least (z :: l))). destruct H as [->|H]; [lia|]. specialize (IH H). lia.
  Qed.
  Lemma least_ge k l : l <> [] -> (forall x, In x l -> k <= x) -> k <= least l.
  Proof.
    induction l as [|y l IH]; intros H1 H2; [congruence|]. destruct l as [|z l]; [apply H2; left; reflexivity|].
    change (least (y :: z :: l)) with (Nat.min y (least (z :: l))). pose proof (H2 y (or_introl eq_refl)). pose proof (IH ltac:(discriminate) (fun x Hx => H2 x (or_intror Hx))). lia.
  Qed.
  Definition passing (a : ast) : Prop := shortest a = 0 -> forall o x l, lay a o x l -> occ o l -> er o (o + width a).
  Lemma seq_passes ts : forallb branching ts = true -> Forall passing ts -> passing (Sequence ts).
  Proof.
    intros Hb IH Hs o x l Hl Ho. apply lay_Sequence in Hl. revert o l Hs Hl Ho. induction ts as [|t ts IHts]; intros o l Hs Hl Ho; [cbn; rewrite Nat.add_0_r; constructor|].
    cbn [lay_seq forallb] in *. apply andb_true_iff in Hb. destruct Hb as [B1 B2]. destruct Hl as (l1 & l2 & -> & H1 & H2). rewrite sum_cons, Nat.add_assoc.
    destruct (alts_occ t ts o _ l1 l2 B1 H1 Ho) as [O1 O2]. rewrite short_cons in Hs.
    eapply er_trans; [eapply (Forall_inv IH); [lia|exact H1|exact O1]|]. eapply (IHts B2 (Forall_inv_tail IH)); [lia|exact H2|exact O2].
  Qed.
  Lemma passes a : branching a = true -> passing a.
  Proof.
    induction a as [cs|ts IH|ts IH|ts IH|t mn mx IH|kd b] using ast_ind'; intros Hb; try discriminate.
    - intros Hs. exfalso. cbn [branching] in Hb. apply andb_true_iff in Hb. destruct Hb as [Hb E1]. apply andb_true_iff in Hb. destruct Hb as [Hb _]. apply Nat.leb_le in Hb.
      cbn [shortest] in Hs. enough (1 <= least (map shortest ts)) by lia. apply least_ge; [destruct ts; [cbn in Hb; lia|discriminate]|].
      intros x Hx. apply in_map_iff in Hx. destruct Hx as (t & <- & Ht). rewrite forallb_forall in E1. apply class_shortest, E1, Ht.
    - cbn [branching] in Hb. apply seq_passes; [exact Hb|]. rewrite forallb_forall in Hb. rewrite Forall_forall in *. intros t Ht. apply IH; auto.
    - intros Hs o x l Hl Ho. cbn [shortest] in Hs. destruct (rep_kind _ _ _ Hb) as [[H1 _]|(H1 & Hbt & m & -> & Hm & _)].
      + assert (S1 : shortest t = 1).
        { clear - H1. induction t as [cs|l IH|l IH|l IH|t mn mx IH|k b] using ast_ind'; try discriminate H1; [reflexivity|]. destruct l as [|t [|t2 l]]; try discriminate H1.
          rewrite short_cons. rewrite (Forall_inv IH H1). reflexivity. }
        rewrite S1, Nat.mul_1_r in Hs. subst mn.
        destruct (rep_cases _ _ _ _ _ _ H1 Hl) as [(_ & _ & _ & Hw)|[(_ & F & _)|(r & l' & -> & Hr & Hz & Hw)]]; [| |]; rewrite ?Hw.
        * rewrite Nat.add_0_r. constructor.
        * discriminate.
        * destruct Hr as (Hr1 & e & ef & -> & _ & Hef). specialize (Hz _ eq_refl). cbn [eps] in Hz.
          assert (E0 : At o = (false, mkState e EMPTY 0)) by (rewrite <- (Nat.add_0_r o); eapply occ_At; [exact Ho|reflexivity]).
          assert (Ef : At (o + S r) = (false, mkState ef EMPTY 0)).
          { eapply occ_At; [exact Ho|]. cbn [map nth_error]. rewrite map_app, nth_error_app2, map_length, copies_length, Nat.sub_diag by (rewrite map_length, copies_length; lia). reflexivity. }
          apply (er_step o (o + S r)); [unfold Ec, Q; rewrite E0; cbn [snd eps]; replace (o + S r) with (o + r + 1) by lia; apply Hz; reflexivity|].
          apply er_one. unfold Ec, Q. rewrite Ef. cbn [snd eps]. replace (o + (2 + r)) with (o + r + 2) by lia. destruct Hef as [Hef|Hef]; apply Hef; auto.
      + specialize (IH Hbt). destruct (group_cases _ _ _ _ _ _ H1 Hm Hl) as [(_ & _ & _ & Hw)|[(-> & _ & Hl' & Hw)|(Hm1 & Hw & l' & Hg & Hl')]]; rewrite Hw.
        * rewrite Nat.add_0_r. constructor.
        * apply (IH ltac:(lia) _ _ _ Hl' Ho).
        * destruct (group_shape _ _ _ _ _ _ Hg (copies_length' _ _ _ _ Hbt Hl') Ho) as (_ & _ & He & Oc & _ & _ & Hf).
          replace (o + (2 + m * width t)) with (S o + m * width t + 1) by lia. eapply er_trans; [|apply er_one, Hf; reflexivity].
          destruct (Nat.eq_dec mn 0) as [->|Hn]; [apply er_one, He; auto|].
          apply (er_step o (S o)); [apply He; left; exists 0; lia|]. apply lay_Sequence in Hl'. rewrite <- repeat_width.
          apply (seq_passes _ (forallb_repeat branching t m Hbt) (Forall_repeat' _ t m IH)) with (x := S o + m * width t) (l := l'); [|exact Hl'|exact Oc].
          assert (S0 : shortest t = 0) by (apply Nat.mul_eq_0 in Hs; lia). clear - S0. induction m as [|m IHm]; [reflexivity|]. cbn [repeat]. rewrite short_cons, IHm, S0. reflexivity.
  Qed.

  (** A pattern all of whose texts have two characters: its first characters do not lead to its end. *)
  Lemma seg_next a o x l u : branching a = true -> lay a o x l -> occ o l -> o <= u < o + width a -> bar u = false -> own (At u) u -> next (Q u) = x \/ o <= next (Q u) <= o + width a.
  Proof.
    intros Hb Hl Ho Hu Hf Hown. pose proof (lay_length a Hb _ _ _ Hl) as Hw. destruct (occ_at o l u Ho ltac:(lia)) as (y & Hy & E0).
    unfold bar, Q in *. rewrite E0 in *. replace u with (o + (u - o)) in Hown by lia.
    destruct (lay_next a Hb o x l Hl (u - o) y Hy Hf Hown) as [G|[G _]]; auto.
  Qed.
  Definition stepping (a : ast) : Prop := ends_unrepeated a = true -> 2 <= shortest a -> forall o x l, lay a o x l -> occ o l -> forall u, er o u -> bar u = false -> own (At u) u ->
    o <= next (Q u) < o + width a.
  Lemma first_step a : branching a = true -> stepping a.
  Proof.
    induction a as [cs|ts IH|ts IH|ts IH|t mn mx IH|kd b] using ast_ind'; intros Hb He Hs o x l Hl Ho u Hu Hf Hown; try discriminate.
    - cbn in Hs. lia.
    - apply lay_Alternatives in Hl. destruct Hl as (e & l' & -> & Hst & Hl). rewrite alts_width in *.
      cbn [branching shortest] in Hb, Hs. apply andb_true_iff in Hb. destruct Hb as [Hb E1]. apply andb_true_iff in Hb. destruct Hb as [_ B1].
      change ((true, mkState e EMPTY 0) :: l') with ([(true, mkState e EMPTY 0)] ++ l') in Ho. apply occ_app in Ho. destruct Ho as [Oo Ol]. cbn [length] in Ol. rewrite Nat.add_1_r in Ol.
      assert (E0 : At o = (true, mkState e EMPTY 0)) by (rewrite <- (Nat.add_0_r o); eapply occ_At; [exact Oo|reflexivity]).
      apply er_inv in Hu. destruct Hu as [->|(s & Hos & Hu)]; [unfold bar in Hf; rewrite E0 in Hf; discriminate|].
      assert (Hin : In s (starts ts (S o))) by (apply Hst; unfold Ec, Q in Hos; rewrite E0 in Hos; exact Hos).
      assert (Hsh : forall t, In t ts -> 2 <= shortest t) by (intros t Ht; etransitivity; [exact Hs|]; apply least_in, in_map, Ht).
      enough (HG : forall z ts p l, Forall (fun a => branching a = true -> stepping a) ts -> forallb branching ts = true -> forallb ends_in_class ts = true -> (forall t, In t ts -> 2 <= shortest t) ->
        lay_alts ts p z l -> occ p l -> In s (starts ts p) -> p <= next (Q u) < p + width (Sequence ts)) by (pose proof (HG _ _ _ _ IH B1 E1 Hsh Hl Ol Hin); lia).
      clear - Hu Hf Hown. intros z. induction ts as [|t ts IHts]; intros p l IH Hb He Hsh Hl Ho Hin; [destruct Hin|].
      cbn [lay_alts forallb starts] in *. apply andb_true_iff in Hb, He. destruct Hb as [B1 B2], He as [E1 E2]. destruct Hl as (l1 & l2 & -> & H1 & H2). rewrite sum_cons.
      destruct (alts_occ t ts p z l1 l2 B1 H1 Ho) as [O1 O2]. destruct Hin as [<-|Hin].
      + pose proof (Forall_inv IH B1 (class_unrepeated _ E1) (Hsh t (or_introl eq_refl)) _ _ _ H1 O1 u Hu Hf Hown). lia.
      + pose proof (IHts _ _ (Forall_inv_tail IH) B2 E2 (fun t Ht => Hsh t (or_intror Ht)) H2 O2 Hin). lia.
    - apply lay_Sequence in Hl. cbn [branching] in Hb. revert o l He Hs Hl Ho Hu. induction ts as [|t ts IHts]; intros o l He Hs Hl Ho Hu; [discriminate He|].
      cbn [lay_seq forallb] in *. apply andb_true_iff in Hb. destruct Hb as [B1 B2]. destruct Hl as (l1 & l2 & -> & H1 & H2). rewrite sum_cons, short_cons in *.
      destruct (alts_occ t ts o _ l1 l2 B1 H1 Ho) as [O1 O2]. destruct ts as [|t2 ts].
      + cbn in Hs. rewrite Nat.add_0_r in Hs. pose proof (Forall_inv IH B1 He Hs _ _ _ H1 O1 u Hu Hf Hown). lia.
      + rewrite unrepeated_cons in He. pose proof (unrepeated_width _ He) as Hw2.
        assert (Hin : o <= u < o + width t -> o <= next (Q u) < o + (width t + width (Sequence (t2 :: ts)))).
        { intros Hr. destruct (seg_next t o _ l1 u B1 H1 O1 Hr Hf Hown); lia. }
        destruct (Nat.lt_ge_cases 0 (shortest t)) as [C|C].
        * apply Hin. apply (stops t B1 C _ _ _ H1 O1 u Hu).
        * destruct (seg_er t o _ l1 u B1 H1 O1 Hu) as [[G _]|G]; [apply Hin; exact G|].
          pose proof (IHts (Forall_inv_tail IH) B2 (o + width t) l2 He ltac:(lia) H2 O2 G). lia.
  Qed.

  (** The characters with which a text can begin. *)
  Definition begins_with (o w u : nat) : Prop := er o u /\ o <= u < o + w /\ chars (Q u) <> EMPTY.
  Definition beginning (a : ast) : Prop := forall o x l, lay a o x l -> occ o l ->
    exists L, length L = beginnings a /\ NoDup L /\ Forall (begins_with o (width a)) L.
  Lemma begin_cons t ts : beginnings (Sequence (t :: ts)) = beginnings t + (if shortest t =? 0 then beginnings (Sequence ts) else 0).
  Proof. reflexivity. Qed.
  Lemma NoDup_two (P1 P2 : nat -> Prop) q L1 L2 : NoDup L1 -> NoDup L2 -> Forall P1 L1 -> Forall P2 L2 -> (forall u, P1 u -> u < q) -> (forall u, P2 u -> q <= u) -> NoDup (L1 ++ L2).
  Proof.
    intros N1 N2 F1 F2 H1 H2. induction L1 as [|a L1 IH]; [exact N2|]. cbn [app]. inversion N1 as [|? ? N3 N4]; subst. inversion F1 as [|? ? F3 F4]; subst. constructor; [|apply IH; assumption].
    rewrite in_app_iff. intros [H|H]; [contradiction|]. rewrite Forall_forall in F2. specialize (H2 _ (F2 _ H)). specialize (H1 _ F3). lia.
  Qed.
  Lemma begins a : branching a = true -> beginning a.
  Proof.
    assert (Hclass : forall cs o x, occ o [(false, new_transition cs x)] -> exists L, length L = (if N.eqb cs EMPTY then 0 else 1) /\ NoDup L /\ Forall (begins_with o 1) L).
    { intros cs o x Ho. destruct (N.eqb_spec cs EMPTY) as [->|Hc]; [exists []; split; [reflexivity|]; split; constructor|]. exists [o]. split; [reflexivity|]. split; [constructor; [intros []|constructor]|]. constructor; [|constructor].
      assert (E0 : At o = (false, new_transition cs x)) by (rewrite <- (Nat.add_0_r o); eapply occ_At; [exact Ho|reflexivity]).
      split; [constructor|]. split; [lia|]. unfold Q. rewrite E0. exact Hc. }
    assert (Hcls : forall t, one_class t = true -> beginnings t = (if N.eqb (class_of t) EMPTY then 0 else 1)).
    { intros t H1. induction t as [cs|l IH|l IH|l IH|t mn mx IH|k b] using ast_ind'; try discriminate H1; [reflexivity|]. destruct l as [|t [|t2 l]]; try discriminate H1.
      rewrite begin_cons, (Forall_inv IH H1). change (class_of (Sequence [t])) with (class_of t). change (beginnings (Sequence [])) with 0. destruct (shortest t =? 0); lia. }
    induction a as [cs|ts IH|ts IH|ts IH|t mn mx IH|kd b] using ast_ind'; intros Hb o x l Hl Ho; try discriminate.
    - cbn in Hl. subst l. apply (Hclass cs o x Ho).
    - apply lay_Alternatives in Hl. destruct Hl as (e & l' & -> & Hst & Hl). rewrite alts_width in *.
      cbn [branching] in Hb. apply andb_true_iff in Hb. destruct Hb as [Hb E1]. apply andb_true_iff in Hb. destruct Hb as [_ B1].
      change ((true, mkState e EMPTY 0) :: l') with ([(true, mkState e EMPTY 0)] ++ l') in Ho. apply occ_app in Ho. destruct Ho as [Oo Ol]. cbn [length] in Ol. rewrite Nat.add_1_r in Ol.
      assert (E0 : At o = (true, mkState e EMPTY 0)) by (rewrite <- (Nat.add_0_r o); eapply occ_At; [exact Oo|reflexivity]).
      assert (Hec : forall j, In j (starts ts (S o)) -> Ec o j) by (intros j Hj; unfold Ec, Q; rewrite E0; apply Hst; exact Hj).
      enough (HG : forall z ts p l, Forall (fun a => branching a = true -> beginning a) ts -> forallb branching ts = true ->
        lay_alts ts p z l -> occ p l -> exists L, length L = list_sum (map beginnings ts) /\ NoDup L /\ Forall (fun u => exists s, In s (starts ts p) /\ er s u /\ p <= u < p + width (Sequence ts) /\ chars (Q u) <> EMPTY) L).
      { destruct (HG _ _ _ _ IH B1 Hl Ol) as (L & L1 & L2 & L3). exists L. split; [exact L1|]. split; [exact L2|]. eapply Forall_impl; [|exact L3].
        intros u (s & Hs1 & Hs2 & Hs3 & Hs4). split; [apply (er_step o s u (Hec s Hs1) Hs2)|]. split; [lia|exact Hs4]. }
      clear. intros z. induction ts as [|t ts IHts]; intros p l IH Hb Hl Ho; [exists []; split; [reflexivity|]; split; constructor|].
      cbn [lay_alts forallb starts] in *. apply andb_true_iff in Hb. destruct Hb as [B1 B2]. destruct Hl as (l1 & l2 & -> & H1 & H2). rewrite sum_cons.
      destruct (alts_occ t ts p z l1 l2 B1 H1 Ho) as [O1 O2]. destruct (Forall_inv IH B1 _ _ _ H1 O1) as (L1 & A1 & A2 & A3), (IHts _ _ (Forall_inv_tail IH) B2 H2 O2) as (L2 & A4 & A5 & A6).
      exists (L1 ++ L2). split; [rewrite app_length, A1, A4; reflexivity|]. split.
      + eapply (NoDup_two _ _ (p + width t)); [exact A2|exact A5|exact A3|exact A6|intros u (_ & G & _); lia|intros u (s & _ & _ & G & _); lia].
      + apply Forall_app. split; (eapply Forall_impl; [|eassumption]).
        * intros u (G1 & G2 & G3). exists p. split; [left; reflexivity|]. split; [exact G1|]. split; [lia|exact G3].
        * intros u (s & G1 & G2 & G3 & G4). exists s. split; [right; exact G1|]. split; [exact G2|]. split; [lia|exact G4].
    - apply lay_Sequence in Hl. cbn [branching] in Hb. revert o l Hl Ho. induction ts as [|t ts IHts]; intros o l Hl Ho; [exists []; split; [reflexivity|]; split; constructor|].
      cbn [lay_seq forallb] in *. apply andb_true_iff in Hb. destruct Hb as [B1 B2]. destruct Hl as (l1 & l2 & -> & H1 & H2). rewrite sum_cons, begin_cons.
      destruct (alts_occ t ts o _ l1 l2 B1 H1 Ho) as [O1 O2]. destruct (Forall_inv IH B1 _ _ _ H1 O1) as (L1 & A1 & A2 & A3).
      assert (A3' : Forall (begins_with o (width t + width (Sequence ts))) L1) by (eapply Forall_impl; [|exact A3]; intros u (G1 & G2 & G3); split; [exact G1|]; split; [lia|exact G3]).
      destruct (Nat.eqb_spec (shortest t) 0) as [C|C].
      + destruct (IHts (Forall_inv_tail IH) B2 _ _ H2 O2) as (L2 & A4 & A5 & A6). exists (L1 ++ L2). split; [rewrite app_length, A1, A4; reflexivity|]. split.
        * eapply (NoDup_two _ _ (o + width t)); [exact A2|exact A5|exact A3|exact A6|intros u (_ & G & _); lia|intros u (_ & G & _); lia].
        * apply Forall_app. split; [exact A3'|]. eapply Forall_impl; [|exact A6]. intros u (G1 & G2 & G3). split; [eapply er_trans; [apply (passes t B1 C _ _ _ H1 O1)|exact G1]|]. split; [lia|exact G3].
      + exists L1. split; [lia|]. split; assumption.
    - destruct (rep_kind _ _ _ Hb) as [[H1 _]|(H1 & Hbt & m & -> & Hm & _)].
      + cbn [beginnings]. rewrite (Hcls t H1).
        destruct (rep_cases _ _ _ _ _ _ H1 Hl) as [(_ & _ & -> & Hw)|[(-> & _ & Hw)|(r & l' & -> & Hr & Hz & Hw)]]; [| |]; rewrite Hw.
        * exists []. split; [reflexivity|]; split; constructor.
        * destruct (Hclass _ _ _ Ho) as (L & L1 & L2 & L3). destruct mx as [[|m']|]; [exists []; split; [reflexivity|]; split; constructor|exists L; auto|exists L; auto].
        * destruct Hr as (Hr1 & e & ef & -> & (v & Hv & He) & Hef).
          assert (E0 : At o = (false, mkState e EMPTY 0)) by (rewrite <- (Nat.add_0_r o); eapply occ_At; [exact Ho|reflexivity]).
          assert (E1 : At (o + 1) = (false, new_transition (class_of t) (S (S o)))).
          { eapply occ_At; [exact Ho|]. cbn [map nth_error]. destruct r as [|r]; [lia|]. reflexivity. }
          enough (HL : exists L, length L = (if N.eqb (class_of t) EMPTY then 0 else 1) /\ NoDup L /\ Forall (begins_with o (2 + r)) L).
          { destruct HL as (L & L1 & L2 & L3). destruct mx as [[|m']|]; [exists []; split; [reflexivity|]; split; constructor|exists L; auto|exists L; auto]. }
          destruct (N.eqb_spec (class_of t) EMPTY) as [_|Hc]; [exists []; split; [reflexivity|]; split; constructor|]. exists [o + 1]. split; [reflexivity|]. split; [constructor; [intros []|constructor]|]. constructor; [|constructor].
          split; [apply er_one; unfold Ec, Q; rewrite E0; cbn [snd eps]; apply He; lia|]. split; [lia|]. unfold Q. rewrite E1. exact Hc.
      + specialize (IH Hbt). cbn [beginnings]. destruct (group_cases _ _ _ _ _ _ H1 Hm Hl) as [(_ & _ & -> & Hw)|[(_ & -> & Hl' & Hw)|(Hm1 & Hw & l' & Hg & Hl')]]; rewrite Hw.
        * exists []. split; [reflexivity|]; split; constructor.
        * apply (IH _ _ _ Hl' Ho).
        * destruct (group_shape _ _ _ _ _ _ Hg (copies_length' _ _ _ _ Hbt Hl') Ho) as (_ & _ & He & Oc & _).
          rewrite <- repeat_width in Hl'. apply nat_seq in Hl'. destruct (copy_at t m Hbt _ _ Hl' Oc 0 Hm1) as (l1 & L1 & L2). cbn [Nat.mul] in L1, L2. rewrite Nat.add_0_r in L1, L2.
          destruct (IH _ _ _ L1 L2) as (L & A1 & A2 & A3). destruct m as [|m]; [lia|]. exists L. split; [exact A1|]. split; [exact A2|]. eapply Forall_impl; [|exact A3].
          intros u (G1 & G2 & G3). split; [apply (er_step o (S o)); [apply He; left; exists 0; lia|exact G1]|]. split; [|exact G3]. pose proof (mul_lt 0 (S m) (width t) ltac:(lia)). lia.
  Qed.
  Lemma two_beginnings a o x l : branching a = true -> 2 <= beginnings a -> lay a o x l -> occ o l ->
    exists u v, u <> v /\ begins_with o (width a) u /\ begins_with o (width a) v.
  Proof.
    intros Hb H2 Hl Ho. destruct (begins a Hb _ _ _ Hl Ho) as (L & L1 & L2 & L3). destruct L as [|u [|v L]]; cbn in L1; [lia|lia|]. exists u, v.
    inversion L2 as [|? ? N1 _]; subst. inversion L3 as [|? ? F1 F2]; subst. inversion F2; subst. split; [|auto]. intros ->. apply N1. left. reflexivity.
  Qed.

  (** What a state in front of alternatives or of a group looks like. *)
  Definition closed (p q x : nat) : Prop := forall i, p <= i < q -> (forall j, Ec i j -> p <= j < q) /\
    (bar i = false -> own (At i) i -> next (Q i) = x \/ p <= next (Q i) < q).
  Definition barrier (i : nat) : Prop :=
    chars (Q i) = EMPTY /\ gap (S i) /\ (forall j, Ec i j -> gap j) /\ LW i /\
    exists s2, S i < s2 /\ Ec i (S i) /\ Ec i s2 /\ (forall j, Ec i j -> j = S i \/ s2 <= j) /\
      (forall u v, S i <= u < s2 -> Ec u v -> S i <= v < s2) /\
      ((exists jn, s2 < jn /\ (forall j, Ec i j -> j < jn) /\ closed (S i) s2 jn /\ closed s2 jn jn /\ RC jn) \/
       (forall u, er (S i) u -> bar u = false -> own (At u) u -> S i <= next (Q u) < s2) \/
       (exists u v, u <> v /\ begins_with (S i) (s2 - S i) u /\ begins_with (S i) (s2 - S i) v)).
  (** What the other states look like. *)
  Definition regular (n i : nat) : Prop :=
    (eps (Q i) = 0%N /\ next (Q i) = S i) \/
    (chars (Q i) = EMPTY /\ exists u, i < u <= n /\ forall j, Ec i j <-> i < j <= u) \/
    (chars (Q i) = EMPTY /\ 1 <= i /\ bar (i - 1) = false /\ eps (Q (i - 1)) = 0%N /\ next (Q (i - 1)) = i /\ forall j, Ec i j <-> j = S i \/ S j = i) \/
    (eps (Q i) = 0%N /\ gap (S i) /\ (next (Q i) = i \/ (i < next (Q i) /\ gap (next (Q i))))).
  Definition fact (n i : nat) : Prop := (bar i = true -> barrier i) /\ (bar i = false -> regular n i).

  Lemma rep_fact cs o k l' n : rep_form cs o k l' -> occ o (map (pair false) l') -> o + (2 + k) <= n -> forall i, i < 2 + k -> bar (o + i) = false /\ regular n (o + i).
  Proof.
    intros Hr Ho Hn i Hi. pose proof (rep_form_length _ _ _ _ Hr) as Hlen.
    assert (HA : forall i, i < 2 + k -> exists z, nth_error l' i = Some z /\ At (o + i) = (false, z)).
    { intros m Hm. destruct (nth_some l' m ltac:(lia)) as [z Hz]. exists z. split; [exact Hz|]. eapply occ_At; [exact Ho|]. rewrite nth_error_map, Hz. reflexivity. }
    destruct (HA i Hi) as (z & Hz & Ez). split; [unfold bar; rewrite Ez; reflexivity|].
    destruct Hr as (Hk & e & ef & -> & (u & Hu & He) & Hef). unfold regular, Ec, Q. rewrite Ez. cbn [snd].
    destruct i as [|i]; cbn [nth_error] in Hz.
    - injection Hz as <-. right; left. split; [reflexivity|]. exists (o + u). rewrite Nat.add_0_r. split; [lia|]. cbn [eps]. exact He.
    - destruct (Nat.lt_ge_cases i k) as [C|C].
      + rewrite nth_error_app1 in Hz by (rewrite copies_length; exact C). apply copies_nth in Hz. destruct Hz as [_ ->]. left. cbn. split; [reflexivity|lia].
      + rewrite nth_error_app2 in Hz by (rewrite copies_length; exact C). rewrite copies_length in Hz.
        destruct (i - k) as [|[|]] eqn:F; [|discriminate|discriminate]. cbn in Hz. injection Hz as <-. assert (i = k) by lia. subst i. cbn [eps chars]. destruct Hef as [Hef|Hef].
        * right; left. split; [reflexivity|]. exists (o + k + 2). split; [lia|]. intros j. rewrite Hef. lia.
        * right; right; left. split; [reflexivity|]. split; [lia|]. destruct (HA k ltac:(lia)) as (y & Hy & Ey).
          destruct k as [|k]; [lia|]. cbn [nth_error] in Hy. rewrite nth_error_app1 in Hy by (rewrite copies_length; lia). apply copies_nth in Hy. destruct Hy as [_ ->].
          replace (o + S (S k) - 1) with (o + S k) by lia. unfold bar. rewrite Ey. cbn [fst snd new_transition eps next].
          split; [reflexivity|]. split; [reflexivity|]. split; [lia|]. intros j. rewrite Hef. lia.
  Qed.

  Definition facts (n : nat) (a : ast) : Prop := forall o x l, lay a o x l -> occ o l -> o + width a <= n -> LW o -> RC (o + width a) ->
    (x = o + width a \/ (ends_in_class a = true /\ gap (o + width a) /\ gap x /\ o + width a <= x)) -> forall k, k < width a -> fact n (o + k).
  Lemma class_fact n o x cs : occ o [(false, new_transition cs x)] -> (x = S o \/ (gap (S o) /\ gap x /\ S o <= x)) -> fact n o.
  Proof.
    intros Ho Hx. assert (E0 : At o = (false, new_transition cs x)) by (rewrite <- (Nat.add_0_r o); eapply occ_At; [exact Ho|reflexivity]).
    unfold fact, bar, regular, Q. rewrite E0. cbn [fst snd new_transition eps next]. split; [discriminate|]. intros _. destruct Hx as [->|(H1 & H2 & H3)]; [left; auto|].
    right; right; right. split; [reflexivity|]. split; [exact H1|]. right. split; [lia|exact H2].
  Qed.
  Lemma seq_fact n ts : forallb branching ts = true -> Forall (facts n) ts -> facts n (Sequence ts).
  Proof.
    intros Hb IH o x l Hl Ho Hn HL HR Hx k Hk. apply lay_Sequence in Hl. revert o l k Hl Ho Hn HL HR Hx Hk.
    induction ts as [|t ts IHts]; intros o l k Hl Ho Hn HL HR Hx Hk; [cbn in Hk; lia|].
    cbn [lay_seq forallb] in *. apply andb_true_iff in Hb. destruct Hb as [B1 B2]. destruct Hl as (l1 & l2 & -> & H1 & H2). rewrite sum_cons in *.
    destruct (alts_occ t ts o _ l1 l2 B1 H1 Ho) as [O1 O2].
    assert (HR2 : RC (o + width t)).
    { eapply (seg_RC (Sequence ts)); [exact B2|apply lay_Sequence; exact H2|exact O2|]. rewrite <- Nat.add_assoc. exact HR. }
    destruct (Nat.lt_ge_cases k (width t)) as [C|C].
    - eapply (Forall_inv IH o _ l1 H1); eauto; [lia|]. destruct ts as [|t2 ts]; [|auto].
      replace (o + (width t + width (Sequence []))) with (o + width t) in Hx by (cbn; lia). exact Hx.
    - replace (o + k) with (o + width t + (k - width t)) by lia. eapply (IHts B2 (Forall_inv_tail IH) (o + width t) l2); eauto.
      + lia.
      + eapply (seg_LW t); eauto.
      + rewrite <- Nat.add_assoc. exact HR.
      + destruct ts as [|t2 ts]; [cbn in Hk; lia|]. rewrite <- Nat.add_assoc. exact Hx.
      + lia.
  Qed.

  Lemma copy_RC t m : branching t = true -> forall p l, lay_nat (repeat t m) p l -> occ p l -> RC (p + m * width t) -> forall i, i <= m -> RC (p + i * width t).
  Proof.
    intros Hb p l Hl Ho HR i Hi. remember (m - i) as d eqn:Hd. revert i Hi Hd. induction d as [|d IH]; intros i Hi Hd; [replace i with m by lia; exact HR|].
    destruct (copy_at t m Hb p l Hl Ho i ltac:(lia)) as (l1 & L1 & L2). eapply (seg_RC t); [exact Hb|exact L1|exact L2|].
    replace (p + i * width t + width t) with (p + S i * width t) by (cbn; lia). apply IH; lia.
  Qed.
  Lemma copy_LS t m : branching t = true -> ends_unrepeated t = true -> forall p l, lay_nat (repeat t m) p l -> occ p l -> LS p -> forall i, i <= m -> LS (p + i * width t).
  Proof.
    intros Hb He p l Hl Ho HL. induction i as [|i IH]; intros Hi; [cbn; rewrite Nat.add_0_r; exact HL|].
    destruct (copy_at t m Hb p l Hl Ho i ltac:(lia)) as (l1 & L1 & L2). replace (p + S i * width t) with (p + i * width t + width t) by (cbn; lia).
    eapply (seg_LS t); [exact Hb|exact He|exact L1|exact L2|]. apply LS_LW, IH. lia.
  Qed.
  Lemma group_barrier t mn m o l' : branching t = true -> ends_unrepeated t = true -> 2 <= shortest t \/ 2 <= beginnings t -> mn < m ->
    bar o = true -> chars (Q o) = EMPTY ->
    (forall j, Ec o j <-> (exists i, i < m /\ i <= m - mn /\ j = S o + i * width t) \/ (mn = 0 /\ j = S o + m * width t)) ->
    lay_nat (repeat t m) (S o) l' -> occ (S o) l' -> LW o -> RC (S o + m * width t) -> barrier o.
  Proof.
    intros Hb He Hs Hm Hbar Hc Hec Hl Ho HL HR.
    assert (HLo : LS (S o)).
    { intros i j Hi Hf Hj. destruct (Nat.eq_dec i o) as [->|Hne]; [congruence|]. pose proof (HL i j ltac:(lia) Hf Hj). lia. }
    pose proof (copy_RC t m Hb _ _ Hl Ho HR) as GR. pose proof (copy_LS t m Hb He _ _ Hl Ho HLo) as GL.
    destruct (copy_at t m Hb _ _ Hl Ho 0 ltac:(lia)) as (l1 & L1 & L2). cbn [Nat.mul] in L1, L2. rewrite Nat.add_0_r in L1, L2.
    pose proof (unrepeated_width t He) as Hw.
    split; [exact Hc|]. split; [split; [exact HLo|]; specialize (GR 0 ltac:(lia)); cbn [Nat.mul] in GR; rewrite Nat.add_0_r in GR; exact GR|].
    split; [|split; [exact HL|]].
    - intros j Hj. apply Hec in Hj. destruct Hj as [(i & I1 & I2 & ->)|[_ ->]]; (split; [apply GL|apply GR]; lia).
    - exists (S o + width t). split; [lia|]. split; [apply Hec; left; exists 0; lia|]. split; [|split; [|split]].
      + apply Hec. destruct (Nat.eq_dec m 1) as [->|Hm1]; [right; split; lia|left; exists 1; lia].
      + intros j Hj. apply Hec in Hj. destruct Hj as [([|i] & I1 & I2 & ->)|[_ ->]]; [left; lia|right; cbn [Nat.mul]; lia|right; pose proof (mul_lt 0 m (width t) ltac:(lia)); lia].
      + intros u v Hu Hv. destruct (seg_in t (S o) _ l1 u v Hb L1 L2 Hu Hv) as [G1 G2]. specialize (G2 He). lia.
      + right. destruct Hs as [Hs|Hs].
        * left. intros u Hu Hf Hown. apply (first_step t Hb He Hs _ _ _ L1 L2 u Hu Hf Hown).
        * right. replace (S o + width t - S o) with (width t) by lia. apply (two_beginnings t _ _ _ Hb Hs L1 L2).
  Qed.

  Lemma lay_fact n a : branching a = true -> facts n a.
  Proof.
    induction a as [cs|ts IH|ts IH|ts IH|t mn mx IH|kd b] using ast_ind'; intros Hb; [intros o x l Hl Ho Hn HL HR Hx k Hk|intros o x l Hl Ho Hn HL HR Hx k Hk| | |intros o x l Hl Ho Hn HL HR Hx k Hk|]; try discriminate.
    - cbn [width lay] in *. subst l. replace (o + k) with o by lia. eapply class_fact; [exact Ho|]. replace (o + 1) with (S o) in Hx by lia. destruct Hx as [->|(_ & Hx)]; auto.
    - clear Hx. apply lay_Alternatives in Hl. destruct Hl as (e & l' & -> & He & Hl). rewrite alts_width in *.
      cbn [branching] in Hb. apply andb_true_iff in Hb. destruct Hb as [Hb E1]. apply andb_true_iff in Hb. destruct Hb as [Hlen B1].
      change ((true, mkState e EMPTY 0) :: l') with ([(true, mkState e EMPTY 0)] ++ l') in Ho. apply occ_app in Ho. destruct Ho as [Oo Ol]. cbn [length] in Ol.
      assert (E0 : At o = (true, mkState e EMPTY 0)) by (rewrite <- (Nat.add_0_r o); eapply occ_At; [exact Oo|reflexivity]).
      rewrite Nat.add_1_r in Ol. rewrite Nat.add_succ_r in HR, Hn, Hl.
      set (jn := S (o + width (Sequence ts))) in *. assert (Ejn : jn = S o + width (Sequence ts)) by reflexivity.
      assert (HLo : LS (S o)).
      { intros i j Hi Hf Hj. destruct (Nat.eq_dec i o) as [->|Hne]; [unfold bar in Hf; rewrite E0 in Hf; discriminate|]. pose proof (HL i j ltac:(lia) Hf Hj). lia. }
      assert (HRo : RC (S o)) by (eapply (alts_RC ts); eauto).
      assert (HLj : LS jn) by (rewrite Ejn; eapply (alts_LS ts); eauto).
      assert (Hgj : gap jn) by (split; assumption).
      destruct k as [|k].
      + rewrite Nat.add_0_r. unfold fact, bar. rewrite E0. cbn [fst]. split; [|discriminate]. intros _. unfold barrier, Q. rewrite E0. cbn [snd chars].
        assert (Hec : forall j, Ec o j <-> In j (starts ts (S o))) by (intros j; unfold Ec, Q; rewrite E0; apply He).
        assert (Hgs : forall j, Ec o j -> gap j /\ S o <= j < jn).
        { intros j Hj. apply Hec in Hj. rewrite Ejn. eapply (alts_gaps ts); eauto. }
        split; [reflexivity|]. split; [split; assumption|]. split; [intros j Hj; apply (Hgs j Hj)|]. split; [exact HL|].
        destruct ts as [|t1 [|t2 ts]]; try discriminate.
        cbn [lay_alts] in Hl. destruct Hl as (l1 & l2 & -> & H1 & H2). change (forallb branching (t1 :: t2 :: ts)) with (branching t1 && forallb branching (t2 :: ts)) in B1.
        change (forallb ends_in_class (t1 :: t2 :: ts)) with (ends_in_class t1 && forallb ends_in_class (t2 :: ts)) in E1.
        apply andb_true_iff in B1, E1. destruct B1 as [B1 B2], E1 as [E1 E2].
        destruct (alts_occ t1 (t2 :: ts) (S o) jn l1 l2 B1 H1 Ol) as [O1 O2]. change (lay_alts (t2 :: ts) (S o + width t1) jn l2) in H2.
        pose proof (ends_width t1 E1) as W1.
        assert (W2 : 0 < width (Sequence (t2 :: ts))).
        { cbn [lay_alts] in H2. destruct H2 as (l3 & l4 & _ & H3 & _). cbn [forallb] in E2, B2. apply andb_true_iff in E2, B2. rewrite sum_cons. pose proof (ends_width t2 (proj1 E2)). lia. }
        assert (Ej2 : jn = S o + width t1 + width (Sequence (t2 :: ts))) by (rewrite Ejn, sum_cons; lia).
        exists (S o + width t1). split; [lia|]. split; [apply Hec; left; reflexivity|]. split; [apply Hec; right; left; reflexivity|]. split; [|split; [|left; exists jn; split; [lia|]; split; [intros j Hj; apply (Hgs j Hj)|]; split; [|split; [|exact HR]]]].
        * intros j Hj. apply Hec in Hj. cbn [starts] in Hj. destruct Hj as [Hj|Hj]; [auto|]. right.
          change (In j (starts (t2 :: ts) (S o + width t1))) in Hj. apply starts_in in Hj. lia.
        * intros u v Hu Hv. destruct (seg_in t1 (S o) _ l1 u v B1 H1 O1 Hu Hv) as [G1 G2]. specialize (G2 (class_unrepeated _ E1)). lia.
        * assert (Hs1 : width (Sequence [t1]) = width t1) by (cbn; lia). rewrite <- Hs1. intros i Hi.
          assert (Hl1 : lay_alts [t1] (S o) jn l1) by (cbn [lay_alts]; exists l1, []; rewrite app_nil_r; auto).
          apply (alts_closed [t1] ltac:(cbn [forallb]; rewrite B1; reflexivity) ltac:(cbn [forallb]; rewrite E1; reflexivity) (S o) jn l1 Hl1 O1 i Hi).
        * intros i Hi. rewrite Ej2 in Hi. destruct (alts_closed (t2 :: ts) B2 E2 (S o + width t1) jn l2 H2 O2 i Hi) as [Q1 Q2]. rewrite <- Ej2 in Q1, Q2. split; assumption.
      + rewrite Nat.add_succ_r, <- Nat.add_succ_l.
        enough (HG : forall ts p l k, Forall (fun a => branching a = true -> facts n a) ts ->
            forallb branching ts = true -> forallb ends_in_class ts = true -> lay_alts ts p jn l -> occ p l -> LS p -> p + width (Sequence ts) = jn -> k < width (Sequence ts) -> fact n (p + k)).
        { eapply (HG ts (S o) l' k); eauto. lia. }
        clearbody jn. clear - Hn HR HLj Hgj. induction ts as [|t ts IHts]; intros p l k IH Hb He Hl Ho HL Hp Hk; [cbn in Hk; lia|].
        cbn [forallb lay_alts] in *. apply andb_true_iff in Hb, He. destruct Hb as [B1 B2], He as [E1 E2]. destruct Hl as (l1 & l2 & -> & H1 & H2). rewrite sum_cons in Hp, Hk.
        destruct (alts_occ t ts p jn l1 l2 B1 H1 Ho) as [O1 O2].
        assert (HL2 : LS (p + width t)) by (eapply (seg_LS t); eauto using class_unrepeated; apply LS_LW; exact HL).
        assert (HR2 : RC (p + width t)) by (eapply (alts_RC ts B2 _ jn l2); eauto; replace (p + width t + width (Sequence ts)) with jn by lia; exact HR).
        destruct (Nat.lt_ge_cases k (width t)) as [C|C].
        * eapply (Forall_inv IH B1 p jn l1); eauto; [lia|apply LS_LW; exact HL|]. right. split; [exact E1|]. split; [split; assumption|]. split; [exact Hgj|lia].
        * replace (p + k) with (p + width t + (k - width t)) by lia. eapply (IHts _ l2); eauto; [exact (Forall_inv_tail IH)|lia|lia].
    - cbn [branching] in Hb. apply seq_fact; [exact Hb|]. rewrite forallb_forall in Hb. rewrite Forall_forall in *. intros t Ht. apply IH; auto.
    - destruct (rep_kind _ _ _ Hb) as [[H1 _]|(H1 & Hbt & m & -> & Hm & Hkind)].
      + destruct (rep_cases _ _ _ _ _ _ H1 Hl) as [(-> & _ & _ & Hw)|[(-> & _ & Hw)|(r & l' & -> & Hr & _ & Hw)]]; rewrite Hw in *.
        * lia.
        * replace (o + k) with o by lia. eapply class_fact; [exact Ho|]. replace (o + 1) with (S o) in Hx by lia. destruct Hx as [->|(F & _)]; [auto|discriminate].
        * destruct (rep_fact _ o r l' n Hr Ho Hn k Hk) as [F1 F2]. split; [congruence|auto].
      + specialize (IH Hbt). destruct Hx as [Hx|(F & _)]; [|discriminate].
        destruct (group_cases _ _ _ _ _ _ H1 Hm Hl) as [(-> & _ & _ & Hw)|[(_ & _ & Hl' & Hw)|(Hm1 & Hw & l' & Hg & Hl')]]; rewrite Hw in *.
        * lia.
        * apply (IH _ _ _ Hl' Ho Hn HL HR (or_introl Hx) k Hk).
        * destruct (group_shape _ _ _ _ _ _ Hg (copies_length' _ _ _ _ Hbt Hl') Ho) as (Hbar & Hc & Hec & Oc & Hbf & Hcf & Hef).
          set (f := S o + m * width t) in *.
          assert (HRf : RC f).
          { intros i j Hi Hj. destruct (Nat.eq_dec i f) as [->|Hne]; [apply Hef in Hj; lia|]. replace (o + (2 + m * width t)) with (S f) in HR by (unfold f; lia). pose proof (HR i j ltac:(lia) Hj). lia. }
          assert (Hln : lay_nat (repeat t m) (S o) l') by (apply nat_seq; rewrite repeat_width; exact Hl').
          destruct k as [|k]; [|destruct (Nat.eq_dec k (m * width t)) as [->|Hkf]].
          -- rewrite Nat.add_0_r. destruct (Nat.eq_dec mn m) as [->|Hne].
             ++ rewrite Nat.eqb_refl in Hbar. cbn [negb] in Hbar. split; [congruence|]. intros _. right; left. split; [exact Hc|]. exists (S o). split; [lia|].
                intros j. rewrite Hec. split; [|intros Hj; left; exists 0; lia]. intros [(i & I1 & I2 & ->)|[F _]]; [|lia]. assert (i = 0) by lia. subst i. lia.
             ++ destruct (Nat.eqb_spec mn m) as [|_]; [contradiction|]. cbn [negb] in Hbar. split; [|congruence]. intros _.
                destruct Hkind as [|[He Hs]]; [contradiction|]. apply (group_barrier t mn m o l'); auto. lia.
          -- replace (o + S (m * width t)) with f by (unfold f; lia). split; [congruence|]. intros _. right; left. split; [exact Hcf|]. exists (S f).
             split; [unfold f; lia|]. intros j. rewrite Hef. lia.
          -- replace (o + S k) with (S o + k) by lia. apply lay_Sequence in Hl'.
             apply (seq_fact n (repeat t m) (forallb_repeat branching t m Hbt) (Forall_repeat' _ t m IH) _ _ _ Hl' Oc); rewrite ?repeat_width; fold f; [unfold f; lia| |exact HRf|left; reflexivity|lia].
             intros i j Hi Hf Hj. destruct (Nat.eq_dec i o) as [->|Hne]; [|pose proof (HL i j ltac:(lia) Hf Hj); lia].
             rewrite Hbar in Hf. apply negb_false_iff, Nat.eqb_eq in Hf. subst mn. apply Hec in Hj. destruct Hj as [(i & I1 & I2 & ->)|[F _]]; [|lia]. assert (i = 0) by lia. subst i. lia.
  Qed.
End whole.
