(** Automata whose epsilon sets are intervals: what pruning does to their state numbers
    (expression.rs:338-406). *)
From Verif Require Export CompileProofs.

Definition b2n (b : bool) : nat := if b then 1 else 0.

Section targets.
  Variables (n : nat) (L emp : nat -> bool) (H : nat -> nat).
  Hypothesis Hhi : forall i, i < n -> i <= H i < n.
  Hypothesis Htr : forall i j, i < n -> i <= j <= H i -> H j <= H i.
  Hypothesis Hlp : forall i, i < n -> L i = true -> 1 <= i /\ L (i - 1) = false /\ H (i - 1) <= H i /\ emp i = true /\ i < H i.

  Definition tgt (i : nat) : option nat :=
    if (1 <=? i) && emp i && negb (L i) && (i <? H i) then
      if negb (L (S i)) && (H (S i) =? H i) then Some (S i)
      else if (S (S i) <? n) && L (S (S i)) && (H (S (S i)) =? H i) then Some (S (S i)) else None
    else None.

  Record stepA (i : nat) : Prop := {
    sA_1 : 1 <= i; sA_emp : emp i = true; sA_L : L i = false; sA_lt : i < H i;
    sA_L1 : L (S i) = false; sA_H : H (S i) = H i }.
  Record stepB (i : nat) : Prop := {
    sB_1 : 1 <= i; sB_emp : emp i = true; sB_L : L i = false; sB_lt : S (S i) < H i;
    sB_n : S (S i) < n; sB_L1 : L (S i) = false; sB_H1 : H (S i) = S i;
    sB_L2 : L (S (S i)) = true; sB_H2 : H (S (S i)) = H i }.

  Lemma tgt_some i t : i < n -> tgt i = Some t -> (t = S i /\ stepA i) \/ (t = S (S i) /\ stepB i).
  Proof.
    intros Hi. unfold tgt.
    destruct ((1 <=? i) && emp i && negb (L i) && (i <? H i)) eqn:E; [|discriminate].
    rewrite !andb_true_iff, Nat.leb_le, Nat.ltb_lt, negb_true_iff in E. destruct E as [[[E1 E2] E3] E4].
    pose proof (Hhi i Hi) as Hb.
    destruct (negb (L (S i)) && (H (S i) =? H i)) eqn:F.
    - intros [= <-]. left. rewrite andb_true_iff, negb_true_iff, Nat.eqb_eq in F. destruct F as [F1 F2].
      split; [reflexivity|]. split; assumption.
    - destruct ((S (S i) <? n) && L (S (S i)) && (H (S (S i)) =? H i)) eqn:G; [|discriminate].
      intros [= <-]. right. rewrite !andb_true_iff, Nat.ltb_lt, Nat.eqb_eq in G. destruct G as [[G1 G2] G3].
      split; [reflexivity|]. destruct (Hlp _ G1 G2) as (_ & G4 & G5 & _ & G6). replace (S (S i) - 1) with (S i) in G4, G5 by lia.
      rewrite G4 in F. cbn [negb andb] in F. apply Nat.eqb_neq in F.
      assert (H (S i) <= H i) by (apply Htr; lia).
      destruct (Hhi (S i) ltac:(lia)) as [HH _].
      assert (H (S i) = S i).
      { destruct (Nat.eq_dec (H (S i)) (S i)); [assumption|].
        assert (H (S (S i)) <= H (S i)) by (apply Htr; lia). lia. }
      split; try assumption; try lia.
  Qed.
  Lemma tgt_A i : i < n -> stepA i -> tgt i = Some (S i).
  Proof.
    intros Hi [A1 A2 A3 A4 A5 A6]. unfold tgt. rewrite A2, A3, A5, A6, Nat.eqb_refl.
    destruct (Nat.leb_spec 1 i); [|lia]. destruct (Nat.ltb_spec i (H i)); [|lia]. reflexivity.
  Qed.
  Lemma tgt_lt i t : i < n -> tgt i = Some t -> i < t < n.
  Proof.
    intros Hi Ht. destruct (tgt_some _ _ Hi Ht) as [[-> A]|[-> B]].
    - pose proof (Hhi i Hi). pose proof (sA_lt _ A). lia.
    - pose proof (sB_n _ B). lia.
  Qed.

  Definition src (t : nat) : option nat :=
    match t with
    | 0 => None
    | S s =>
        match tgt s with
        | Some t' => if t' =? t then Some s else
            match s with 0 => None | S s' => match tgt s' with Some t' => if t' =? t then Some s' else None | None => None end end
        | None => match s with 0 => None | S s' => match tgt s' with Some t' => if t' =? t then Some s' else None | None => None end end
        end
    end.
  Lemma src_some t s : src t = Some s -> tgt s = Some t /\ (t = S s \/ t = S (S s)).
  Proof.
    unfold src. destruct t as [|q]; [discriminate|].
    assert (HB : match q with 0 => None | S s' => match tgt s' with Some t' => if t' =? S q then Some s' else None | None => None end end = Some s ->
      tgt s = Some (S q) /\ (S q = S s \/ S q = S (S s))).
    { destruct q as [|q]; [discriminate|]. destruct (tgt q) as [t'|] eqn:E; [|discriminate].
      destruct (Nat.eqb_spec t' (S (S q))); [|discriminate]. intros [= <-]. subst. auto. }
    destruct (tgt q) as [t'|] eqn:E; [|exact HB].
    destruct (Nat.eqb_spec t' (S q)); [|exact HB]. intros [= <-]. subst. auto.
  Qed.
  Lemma tgt_uniq s s' t : s < n -> s' < n -> tgt s = Some t -> tgt s' = Some t -> s = s'.
  Proof.
    intros Hs Hs' E E'. destruct (tgt_some _ _ Hs E) as [[E1 A]|[E1 B]]; destruct (tgt_some _ _ Hs' E') as [[E2 A']|[E2 B']]; try lia.
    - assert (s = S s') by lia. subst s. pose proof (sA_lt _ A). pose proof (sB_H1 _ B'). lia.
    - assert (s' = S s) by lia. subst s'. pose proof (sA_lt _ A'). pose proof (sB_H1 _ B). lia.
  Qed.
  Lemma src_iff t s : s < n -> (src t = Some s <-> tgt s = Some t).
  Proof.
    intros Hs. split; [intros E; apply src_some; exact E|]. intros E.
    destruct (src t) as [s'|] eqn:F.
    - destruct (src_some _ _ F) as [F1 F2]. f_equal. pose proof (tgt_lt _ _ Hs E). apply (tgt_uniq s' s t); auto. lia.
    - exfalso. destruct (tgt_some _ _ Hs E) as [[-> _]|[-> _]]; unfold src in F.
      + rewrite E, Nat.eqb_refl in F. discriminate.
      + rewrite E, Nat.eqb_refl in F. destruct (tgt (S s)) as [t'|]; [destruct (t' =? _)|]; discriminate.
  Qed.
  Definition base (t : nat) : nat := match src t with Some s => s | None => t end.
  Definition isdel (t : nat) : bool := match src t with Some _ => true | None => false end.
  Fixpoint cnt (u : nat) : nat := match u with 0 => 0 | S v => cnt v + b2n (isdel v) end.
  Definition M (u : nat) : nat := base u - cnt u.

  (** A state is a root, the target of an A step or the target of a B step. *)
  Lemma kind t : t < n ->
    (isdel t = false /\ base t = t) \/
    (exists s, t = S s /\ stepA s /\ isdel t = true /\ base t = s /\ tgt s = Some t) \/
    (exists s, t = S (S s) /\ stepB s /\ isdel t = true /\ base t = s /\ tgt s = Some t /\ isdel (S s) = false).
  Proof.
    intros Ht. unfold isdel at 1 2 3, base. destruct (src t) as [s|] eqn:E; [|left; auto]. right.
    destruct (src_some _ _ E) as [E1 E2]. destruct (tgt_some s t ltac:(lia) E1) as [[-> A]|[-> B]].
    - left. exists s. auto.
    - right. exists s. repeat split; try apply B; auto. unfold isdel. destruct (src (S s)) as [q|] eqn:F; [|reflexivity]. exfalso.
      destruct (src_some _ _ F) as [F1 F2]. destruct (tgt_some q (S s) ltac:(lia) F1) as [[Q A]|[Q B']].
      + injection Q as <-. rewrite F1 in E1. injection E1 as E1. lia.
      + injection Q as Q. pose proof (sB_L2 _ B'). rewrite <- Q in H0. rewrite (sB_L1 _ B) in H0. discriminate.
  Qed.
  Lemma cnt_le u : cnt u <= u.
  Proof. induction u as [|u IH]; cbn [cnt]; [lia|]. destruct (isdel u); cbn [b2n]; lia. Qed.
  Lemma M_ok u : u < n -> M u + cnt u = base u.
  Proof.
    intros Hu. enough (cnt u <= base u) by (unfold M; lia). revert Hu. induction u as [u IH] using lt_wf_ind. intros Hu.
    destruct (kind u Hu) as [[_ ->]|[(s & -> & A & _ & -> & _)|(s & -> & B & _ & -> & _ & Hs)]].
    - apply cnt_le.
    - cbn [cnt]. specialize (IH s ltac:(lia) ltac:(lia)).
      destruct (kind s ltac:(lia)) as [[E1 E2]|[(q & -> & _ & E1 & E2 & _)|(q & -> & _ & E1 & E2 & _)]]; rewrite E1; cbn [b2n]; lia.
    - cbn [cnt]. rewrite Hs. cbn [b2n]. specialize (IH s ltac:(lia) ltac:(lia)).
      destruct (kind s ltac:(lia)) as [[E1 E2]|[(q & -> & _ & E1 & E2 & _)|(q & -> & _ & E1 & E2 & _)]]; rewrite E1; cbn [b2n]; lia.
  Qed.

  (** How the new number changes from one state to the next. *)
  Definition isA (t : nat) : Prop := exists s, t = S s /\ stepA s /\ isdel t = true /\ base t = s.
  Definition isB (t : nat) : Prop := exists s, t = S (S s) /\ stepB s /\ isdel t = true /\ base t = s.
  Lemma kind' t : t < n -> (isdel t = false /\ base t = t) \/ isA t \/ isB t.
  Proof.
    intros Ht. destruct (kind t Ht) as [E|[(s & E1 & E2 & E3 & E4 & _)|(s & E1 & E2 & E3 & E4 & _)]]; [auto| |].
    - right; left. exists s; auto.
    - right; right. exists s; auto.
  Qed.
  Lemma isB_L t : isB t -> L t = true.
  Proof. intros (s & -> & B & _). apply B. Qed.
  Lemma isA_L t : isA t -> L t = false.
  Proof. intros (s & -> & A & _). apply A. Qed.
  Lemma M_root u : S u < n -> isdel (S u) = false -> ~ isB u -> M (S u) = S (M u).
  Proof.
    intros Hu Hd Hb. pose proof (M_ok u ltac:(lia)) as E1. pose proof (M_ok (S u) Hu) as E2. cbn [cnt] in E2.
    destruct (kind' _ Hu) as [[_ E3]|[(s & _ & _ & E3 & _)|(s & _ & _ & E3 & _)]]; try congruence.
    destruct (kind' u ltac:(lia)) as [[E4 E5]|[(s & -> & _ & E4 & E5)|E]]; [| |contradiction]; rewrite E4 in E2; cbn [b2n] in E2; lia.
  Qed.
  Lemma M_rootB u : S u < n -> isB u -> isdel (S u) = false /\ M (S u) = S (S (M u)).
  Proof.
    intros Hu Hb. pose proof Hb as (s & -> & B & E4 & E5).
    assert (Hd : isdel (S (S (S s))) = false).
    { destruct (kind' _ Hu) as [[E _]|[(q & E & A & _)|(q & E & B' & _)]]; [exact E| |]; exfalso.
      - injection E as <-. pose proof (sA_L _ A) as F. rewrite (sB_L2 _ B) in F. discriminate.
      - injection E as <-. pose proof (sB_L1 _ B') as F. rewrite (sB_L2 _ B) in F. discriminate. }
    split; [exact Hd|].
    pose proof (M_ok (S (S s)) ltac:(lia)) as E1. pose proof (M_ok _ Hu) as E2. cbn [cnt] in E1, E2. rewrite E4 in E2. cbn [b2n] in E2.
    destruct (kind' _ Hu) as [[_ E3]|[(q & _ & _ & E3 & _)|(q & _ & _ & E3 & _)]]; try congruence. lia.
  Qed.
  Lemma M_stepA s : S s < n -> tgt s = Some (S s) -> M (S s) = M s.
  Proof.
    intros Hs E. pose proof (M_ok s ltac:(lia)) as E1. pose proof (M_ok _ Hs) as E2.
    assert (Eb : base (S s) = s) by (unfold base; rewrite (proj2 (src_iff (S s) s ltac:(lia)) E); reflexivity).
    destruct (tgt_some s _ ltac:(lia) E) as [[_ A]|[E0 _]]; [|lia].
    cbn [cnt] in E2. destruct (kind' s ltac:(lia)) as [[E3 E4]|[(q & -> & _ & E3 & E4)|Hb]].
    - rewrite E3 in E2. cbn [b2n] in E2. lia.
    - rewrite E3 in E2. cbn [b2n] in E2. lia.
    - apply isB_L in Hb. rewrite (sA_L _ A) in Hb. discriminate.
  Qed.
  Lemma M_stepB s : S (S s) < n -> tgt s = Some (S (S s)) -> isdel (S s) = false /\ M (S s) = S (M s) /\ M (S (S s)) = M s.
  Proof.
    intros Hs E. destruct (tgt_some s _ ltac:(lia) E) as [[E0 _]|[_ B]]; [lia|].
    assert (Eb : base (S (S s)) = s) by (unfold base; rewrite (proj2 (src_iff (S (S s)) s ltac:(lia)) E); reflexivity).
    assert (Hd : isdel (S s) = false).
    { destruct (kind _ Hs) as [[E1 E2]|[(q & E1 & A & _ & E2 & _)|(q & E1 & _ & _ & E2 & _ & E3)]]; [rewrite Eb in E2; lia|rewrite Eb in E2; lia|]. injection E1 as <-. exact E3. }
    assert (Hnb : ~ isB s) by (intros Hb; apply isB_L in Hb; rewrite (sB_L _ B) in Hb; discriminate).
    pose proof (M_root s ltac:(lia) Hd Hnb) as E1. split; [exact Hd|]. split; [exact E1|].
    pose proof (M_ok s ltac:(lia)) as F1. pose proof (M_ok _ Hs) as F2. cbn [cnt] in F2. rewrite Hd in F2. cbn [b2n] in F2.
    destruct (kind' s ltac:(lia)) as [[E3 E4]|[(q & -> & _ & E3 & E4)|Hb]]; [| |contradiction]; rewrite E3 in F2; cbn [b2n] in F2; lia.
  Qed.
  Lemma M_src s t : s < n -> tgt s = Some t -> M t = M s.
  Proof.
    intros Hs E. pose proof (tgt_lt _ _ Hs E). destruct (tgt_some _ _ Hs E) as [[-> _]|[-> _]].
    - apply M_stepA; [lia|exact E].
    - apply M_stepB; [lia|exact E].
  Qed.
  Lemma isA_tgt s : s < n -> isA (S s) -> tgt s = Some (S s).
  Proof. intros Hs (q & E & A & _). injection E as <-. apply tgt_A; assumption. Qed.
  Lemma isB_tgt t : isB t -> exists s, t = S (S s) /\ tgt s = Some t /\ stepB s.
  Proof.
    intros (s & -> & B & E1 & E2). exists s. split; [reflexivity|]. unfold base, isdel in *.
    destruct (src (S (S s))) as [q|] eqn:E; [|discriminate]. subst q. split; [apply src_some; exact E|exact B].
  Qed.

  Lemma M_mono v : v < n -> forall u, u <= v -> ~ (v = S u /\ isB v) -> M u <= M v.
  Proof.
    induction v as [v IH] using lt_wf_ind. intros Hv u Huv Hn.
    destruct (Nat.eq_dec u v) as [->|Hne]; [lia|]. destruct v as [|v]; [lia|].
    destruct (kind' _ Hv) as [[E _]|[HA|HB]].
    - destruct (kind' v ltac:(lia)) as [[E' _]|[HA'|HB']].
      + assert (HnB : ~ isB v) by (intros (s & _ & _ & F & _); congruence). rewrite (M_root v Hv E HnB).
        enough (M u <= M v) by lia. apply IH; [lia|lia|lia|]. intros [_ F]. contradiction.
      + assert (HnB : ~ isB v) by (intros F; apply isB_L in F; apply isA_L in HA'; congruence). rewrite (M_root v Hv E HnB).
        enough (M u <= M v) by lia. apply IH; [lia|lia|lia|]. intros [_ F]. contradiction.
      + destruct (M_rootB v Hv HB') as [_ ->].
        destruct (isB_tgt _ HB') as (s & -> & E1 & B). destruct (M_stepB s ltac:(lia) E1) as (_ & E2 & E3).
        destruct (Nat.eq_dec u (S s)) as [->|Hne']; [lia|]. enough (M u <= M (S (S s))) by lia. apply IH; [lia|lia|lia|]. intros [F _]. lia.
    - pose proof (isA_tgt v ltac:(lia) HA) as E. rewrite (M_stepA v Hv E). apply IH; [lia|lia|lia|].
      intros [_ F]. apply isB_L in F. destruct (tgt_some v _ ltac:(lia) E) as [[_ A]|[F' _]]; [|lia]. rewrite (sA_L _ A) in F. discriminate.
    - destruct (isB_tgt _ HB) as (s & E & E1 & B). injection E as ->. destruct (M_stepB s ltac:(lia) E1) as (_ & E2 & E3).
      rewrite E3. destruct (Nat.eq_dec u (S s)) as [->|Hne']; [exfalso; apply Hn; auto|].
      apply IH; [lia|lia|lia|]. intros [_ F]. apply isB_L in F. rewrite (sB_L _ B) in F. discriminate.
  Qed.
  Lemma M_root_lt v u : v < n -> isdel v = false -> u < v -> M u < M v.
  Proof.
    intros Hv Hd Hu. destruct v as [|v]; [lia|]. destruct (kind' v ltac:(lia)) as [[E' _]|[HA'|HB']].
    - assert (HnB : ~ isB v) by (intros (s & _ & _ & F & _); congruence). rewrite (M_root v Hv Hd HnB).
      enough (M u <= M v) by lia. apply M_mono; [lia|lia|]. intros [_ F]. contradiction.
    - assert (HnB : ~ isB v) by (intros F; apply isB_L in F; apply isA_L in HA'; congruence). rewrite (M_root v Hv Hd HnB).
      enough (M u <= M v) by lia. apply M_mono; [lia|lia|]. intros [_ F]. contradiction.
    - destruct (M_rootB v Hv HB') as [_ ->].
      destruct (isB_tgt _ HB') as (s & -> & E1 & B). destruct (M_stepB s ltac:(lia) E1) as (_ & E2 & E3).
      destruct (Nat.eq_dec u (S s)) as [->|Hne']; [lia|]. enough (M u <= M (S (S s))) by lia. apply M_mono; [lia|lia|]. intros [F _]. lia.
  Qed.
  (** The top of an interval is never the end of a B step. *)
  Lemma top_not_B i : i < n -> ~ isB (H i).
  Proof.
    intros Hi Hb. apply isB_L in Hb. destruct (Hhi i Hi) as [H1 H2]. destruct (Hlp _ H2 Hb) as (_ & _ & _ & _ & H3).
    pose proof (Htr i (H i) Hi ltac:(lia)). lia.
  Qed.
  Lemma M_top i t : i < n -> t <= H i -> M t <= M (H i).
  Proof.
    intros Hi Ht. apply M_mono; [apply Hhi; exact Hi|exact Ht|]. intros [_ F]. exact (top_not_B i Hi F).
  Qed.

  (** The slot of a root after the states below [k] have been treated. *)
  Fixpoint fin (k q : nat) : nat :=
    match k with
    | 0 => q
    | S k' => match tgt k' with Some t => if fin k' q =? k' then t else fin k' q | None => fin k' q end
    end.
  Lemma fin_id k q : k <= q -> fin k q = q.
  Proof.
    induction k as [|k IH]; intros Hk; [reflexivity|]. cbn [fin]. rewrite IH by lia.
    destruct (tgt k); [|reflexivity]. destruct (Nat.eqb_spec q k); [lia|reflexivity].
  Qed.
  Lemma fin_stay k k' q v : k <= k' -> fin k q = v -> (forall j, k <= j < k' -> tgt j <> None -> v <> j) -> fin k' q = v.
  Proof.
    intros Hk. induction Hk as [|k' Hk IH]; intros E Hj; [exact E|]. cbn [fin]. rewrite IH; [|exact E|intros; apply Hj; auto; lia].
    destruct (tgt k') as [t|] eqn:Et; [|reflexivity]. destruct (Nat.eqb_spec v k'); [|reflexivity].
    exfalso. apply (Hj k'); [lia|congruence|assumption].
  Qed.
  Lemma fin_step s t q : s < n -> tgt s = Some t -> fin s q = s -> fin t q = t.
  Proof.
    intros Hs Et E. pose proof (tgt_lt _ _ Hs Et). apply (fin_stay (S s)); [lia| |intros; lia].
    cbn [fin]. rewrite Et, E, Nat.eqb_refl. reflexivity.
  Qed.

  (** Every state has a root with the same new number. *)
  Lemma root_of u : u < n -> exists r, r <= u /\ isdel r = false /\ M r = M u /\ fin u r = u /\ H r = H u /\
    (r < u -> L r = false).
  Proof.
    induction u as [u IH] using lt_wf_ind. intros Hu.
    destruct (kind u Hu) as [[E _]|[(s & -> & A & _ & _ & E)|(s & -> & B & _ & _ & E & _)]].
    - exists u. repeat split; auto; [apply fin_id; lia|intros; lia].
    - destruct (IH s ltac:(lia) ltac:(lia)) as (r & R1 & R2 & R3 & R4 & R5 & R6). exists r.
      repeat split; [lia|exact R2|rewrite R3; symmetry; apply M_src; [lia|exact E]|apply (fin_step s (S s) r); [lia|exact E|exact R4]|rewrite R5; symmetry; apply A|].
      intros _. destruct (Nat.eq_dec r s) as [->|]; [apply A|apply R6; lia].
    - destruct (IH s ltac:(lia) ltac:(lia)) as (r & R1 & R2 & R3 & R4 & R5 & R6). exists r.
      repeat split; [lia|exact R2|rewrite R3; symmetry; apply M_src; [lia|exact E]|apply (fin_step s (S (S s)) r); [lia|exact E|exact R4]|rewrite R5; symmetry; apply B|].
      intros _. destruct (Nat.eq_dec r s) as [->|]; [apply B|apply R6; lia].
  Qed.

  (** Where the chain through [u] ends. *)
  Lemma end_of d : forall u r, u + d = n -> 0 < d -> fin u r = u ->
    let z := fin n r in
    u <= z < n /\ tgt z = None /\ M z = M u /\ H z = H u /\
    (z = u \/ (emp u = true /\ L u = false /\ u < z /\ tgt u <> None /\ forall t, u <= t -> t + b2n (L z) < z -> M t = M u)).
  Proof.
    induction d as [d IH] using lt_wf_ind. intros u r Hd Hpos Hf. cbv zeta.
    destruct (tgt u) as [v|] eqn:E.
    - pose proof (tgt_lt u v ltac:(lia) E) as Hv. pose proof (fin_step u v r ltac:(lia) E Hf) as Hf'.
      destruct (IH (n - v) ltac:(lia) v r ltac:(lia) ltac:(lia) Hf') as (Z1 & Z2 & Z3 & Z4 & Z5). set (z := fin n r) in *.
      pose proof (M_src u v ltac:(lia) E) as Em.
      assert (Hh : H v = H u /\ emp u = true /\ L u = false).
      { destruct (tgt_some u v ltac:(lia) E) as [[-> A]|[-> B]]; [repeat split; apply A|repeat split; apply B]. }
      destruct Hh as (Hh & He & Hl). repeat split; try lia; try congruence. right. repeat split; try assumption; try lia; try congruence.
      intros t Ht Hz. destruct Z5 as [Z5|(_ & Z6 & Z7 & _ & Z8)].
      + assert (t = u); [|congruence]. rewrite Z5 in Hz. destruct (tgt_some u v ltac:(lia) E) as [[-> A]|[-> B]]; [lia|].
        rewrite (sB_L2 _ B) in Hz. cbn [b2n] in Hz. lia.
      + destruct (tgt_some u v ltac:(lia) E) as [[-> A]|[-> B]]; [|rewrite (sB_L2 _ B) in Z6; discriminate].
        destruct (Nat.eq_dec t u) as [->|]; [reflexivity|]. rewrite Z8 by lia. exact Em.
    - assert (Z : fin n r = u).
      { apply (fin_stay u); [lia|exact Hf|]. intros j Hj Ht ->. congruence. }
      rewrite Z. repeat split; try lia; auto.
  Qed.
End targets.
