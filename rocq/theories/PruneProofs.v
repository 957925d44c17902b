(** Pruning of automata whose epsilon sets are intervals (expression.rs:338-406): the pass computes
    the numbering of [IntervalProofs], it is harmless, and its result is again such an automaton. *)
From Verif Require Export IntervalProofs.

Definition X (st : list state) (i : nat) : state := nth i st state_new.
Definition isemp (st : list state) (i : nat) : bool := N.eqb (chars (X st i)) EMPTY.

(** State [i] reaches without characters the states from [i] (or [i - 1] when [L i]) to [H i].
    A state is proper when it has characters or reaches only itself. *)
Definition wall (H : nat -> nat) (j : nat) : Prop := forall k, k <= j -> H k <= j.
Definition entry (H : nat -> nat) (t : nat) : Prop := forall k, k < t -> H k < t.
(** Such a state ends its part of the automaton: nobody reaches beyond it, and its characters lead to
    itself or forward to a state that nobody before it reaches. *)
Definition far_next (n : nat) (L : nat -> bool) (H : nat -> nat) (i t : nat) : Prop :=
  wall H i /\ (S i < n -> L (S i) = false) /\ (t = i \/ (i < t < n /\ entry H t)).
Record ia (st : list state) (L : nat -> bool) (H : nat -> nat) : Prop := {
  ia_ne : 0 < length st;
  ia_eps : forall i, i < length st -> forall j, mem (eps (X st i)) j = true <-> i <= j + b2n (L i) /\ j <= H i;
  ia_hi : forall i, i < length st -> i <= H i < length st;
  ia_tr : forall i j, i < length st -> i <= j <= H i -> H j <= H i;
  ia_lp : forall i, i < length st -> L i = true ->
            1 <= i /\ L (i - 1) = false /\ H (i - 1) <= H i /\ isemp st i = true /\ i < H i;
  ia_n1 : forall i, i < length st -> (isemp st i = false \/ (H i = i /\ L i = false)) ->
            (next (X st i) = S i /\ S i < length st) \/
            (S (next (X st i)) = i /\ H i = i /\ S i <= H (i - 1) /\ L (i - 1) = false /\ isemp st (i - 1) = true) \/
            far_next (length st) L H i (next (X st i));
  ia_n2 : forall i, i < length st -> L i = true -> (isemp st (i - 1) = false \/ (H (i - 1) = i - 1 /\ L (i - 1) = false)) ->
            next (X st (i - 1)) = i;
  ia_fin : isemp st (length st - 1) = false /\ next (X st (length st - 1)) = length st - 1
}.

Lemma X_nth st i : i < length st -> nth_error st i = Some (X st i).
Proof. intros Hi. unfold X. apply nth_error_nth'. exact Hi. Qed.
Lemma X_of st i x : nth_error st i = Some x -> X st i = x.
Proof. intros Hx. unfold X. apply nth_error_nth. exact Hx. Qed.

Lemma find_similar_spec sim i l : forall a,
  match find_similar sim i (combine (seq a (length l)) l) with
  | Some t => a <= t < a + length l /\ i < t /\ eps (X l (t - a)) = sim /\
              forall j, a <= j < t -> i < j -> eps (X l (j - a)) <> sim
  | None => forall j, a <= j < a + length l -> i < j -> eps (X l (j - a)) <> sim
  end.
Proof.
  induction l as [|x l IH]; intros a; cbn [length seq combine find_similar].
  - intros j Hj. lia.
  - specialize (IH (S a)).
    assert (Hsh : forall j, S a <= j -> X (x :: l) (j - a) = X l (j - S a)).
    { intros j Hj. unfold X. replace (j - a) with (S (j - S a)) by lia. reflexivity. }
    assert (H0 : X (x :: l) (a - a) = x) by (rewrite Nat.sub_diag; reflexivity).
    assert (Hskip : i < a -> sim <> eps x -> forall j, a = j -> i < j -> eps (X (x :: l) (j - a)) <> sim).
    { intros Hi Hne j <- _. rewrite H0. auto. }
    destruct (Nat.leb_spec a i) as [Hai|Hai]; [|destruct (N.eqb_spec sim (eps x)) as [Heq|Hne]].
    + destruct (find_similar sim i (combine (seq (S a) (length l)) l)) as [t|].
      * destruct IH as (T1 & T2 & T3 & T4). repeat split; try lia.
        -- rewrite Hsh by lia. exact T3.
        -- intros j Hj Hij. rewrite Hsh by lia. apply T4; lia.
      * intros j Hj Hij. rewrite Hsh by lia. apply IH; lia.
    + repeat split; try lia. rewrite H0. auto.
    + destruct (find_similar sim i (combine (seq (S a) (length l)) l)) as [t|].
      * destruct IH as (T1 & T2 & T3 & T4). repeat split; try lia.
        -- rewrite Hsh by lia. exact T3.
        -- intros j Hj Hij. destruct (Nat.eq_dec a j) as [<-|]; [rewrite H0; auto|]. rewrite Hsh by lia. apply T4; lia.
      * intros j Hj Hij. destruct (Nat.eq_dec a j) as [<-|]; [rewrite H0; auto|]. rewrite Hsh by lia. apply IH; lia.
Qed.

Lemma filter_all {A} (f : A -> bool) l : (forall x, In x l -> f x = true) -> filter f l = l.
Proof.
  induction l as [|a l IH]; intros Hf; [reflexivity|]. cbn [filter]. rewrite (Hf a (or_introl eq_refl)). f_equal.
  apply IH. intros x Hx. apply Hf. right. exact Hx.
Qed.

Lemma nth_len {A} (l : list A) m : (forall t, nth_error l t <> None <-> t < m) -> length l = m.
Proof.
  intros Hl. destruct (Nat.lt_trichotomy (length l) m) as [C|[C|C]]; [|exact C|].
  - apply Hl in C. exfalso. apply C. apply nth_error_None. lia.
  - apply nth_error_Some, Hl in C. lia.
Qed.

Lemma somes_app {A} (l l' : list (option A)) : somes (l ++ l') = somes l ++ somes l'.
Proof. unfold somes. apply flat_map_app. Qed.
Lemma firstn_S {A} (l : list A) i x : nth_error l i = Some x -> firstn (S i) l = firstn i l ++ [x].
Proof.
  revert i. induction l as [|a l IH]; intros [|i] Hx; try discriminate; cbn in Hx.
  - injection Hx as ->. reflexivity.
  - change (firstn (S (S i)) (a :: l)) with (a :: firstn (S i) l). rewrite (IH _ Hx). reflexivity.
Qed.
Lemma somes_nth {A} (l : list (option A)) i v : nth_error l i = Some (Some v) ->
  nth_error (somes l) (length (somes (firstn i l))) = Some v.
Proof.
  revert i. induction l as [|a l IH]; intros [|i] Hx; try discriminate; cbn in Hx.
  - injection Hx as ->. reflexivity.
  - cbn [firstn]. change (a :: l) with ([a] ++ l). change (a :: firstn i l) with ([a] ++ firstn i l).
    rewrite !somes_app, app_length. destruct a; cbn; apply IH; exact Hx.
Qed.
Lemma somes_nth_inv {A} (l : list (option A)) : forall m v, nth_error (somes l) m = Some v ->
  exists i, nth_error l i = Some (Some v) /\ length (somes (firstn i l)) = m.
Proof.
  induction l as [|a l IH]; intros m v Hm; [destruct m; discriminate|].
  destruct a as [a|].
  - destruct m as [|m]; cbn in Hm.
    + injection Hm as ->. exists 0. auto.
    + destruct (IH m v Hm) as (i & E1 & E2). exists (S i). split; [exact E1|]. cbn. f_equal. exact E2.
  - cbn in Hm. destruct (IH m v Hm) as (i & E1 & E2). exists (S i). split; [exact E1|]. cbn. exact E2.
Qed.

Section fold.
  Variables (st : list state) (L : nat -> bool) (H : nat -> nat) (nblk : nat).
  Hypothesis Hia : ia st L H.
  Hypothesis Hcap : length st <= 32 * nblk.
  Let n := length st.
  Let emp := isemp st.
  Notation tgt := (tgt n L emp H).
  Notation src := (src n L emp H).
  Notation M := (M n L emp H).
  Notation cnt := (cnt n L emp H).
  Notation fin := (fin n L emp H).
  Notation isdel := (isdel n L emp H).
  Notation base := (base n L emp H).
  Let Hhi : forall i, i < n -> i <= H i < n := ia_hi _ _ _ Hia.
  Let Htr := ia_tr _ _ _ Hia.
  Let Hlp : forall i, i < n -> L i = true -> 1 <= i /\ L (i - 1) = false /\ H (i - 1) <= H i /\ emp i = true /\ i < H i := ia_lp _ _ _ Hia.

  Lemma similar_iff i i2 : i < i2 -> i2 < n ->
    (eps (X st i2) = rem (eps (X st i)) i <-> L i = false /\ i < H i /\ H i2 = H i /\ i2 = S i + b2n (L i2)).
  Proof.
    intros Hlt Hi2. pose proof (ia_eps _ _ _ Hia i ltac:(fold n; lia)) as E. pose proof (ia_eps _ _ _ Hia i2 Hi2) as E2.
    destruct (Hhi i ltac:(lia)) as [B1 B2]. destruct (Hhi i2 Hi2) as [B3 B4]. split.
    - intros Heq. assert (G : forall j, (i2 <= j + b2n (L i2) /\ j <= H i2) <-> (i <= j + b2n (L i) /\ j <= H i) /\ j <> i).
      { intros j. rewrite <- E2, Heq, mem_rem, andb_true_iff, E, negb_true_iff, Nat.eqb_neq. split; intros [? ?]; split; auto. }
      pose proof (proj1 (G i2) ltac:(lia)) as G1. pose proof (proj1 (G (H i2)) ltac:(lia)) as G2.
      pose proof (proj2 (G (H i)) ltac:(lia)) as G3. pose proof (proj2 (G (S i)) ltac:(lia)) as G4.
      destruct (L i) eqn:Li.
      + destruct (Hlp i ltac:(lia) Li) as (Q & _). pose proof (proj2 (G (i - 1)) ltac:(cbn [b2n]; lia)) as G5.
        destruct (L i2); cbn [b2n] in *; lia.
      + repeat split; try lia. destruct (L i2) eqn:Li2; cbn [b2n] in *; [|lia].
        pose proof (proj1 (G (i2 - 1)) ltac:(lia)). lia.
    - intros (Li & Hl & Hh & Hi). apply mem_ext. intros j. apply eq_true_iff_eq.
      rewrite mem_rem, andb_true_iff, E, E2, negb_true_iff, Nat.eqb_neq, Li. cbn [b2n]. lia.
  Qed.

  Lemma find_tgt i : 1 <= i -> i < n -> emp i = true ->
    find_similar (rem (eps (X st i)) i) i (combine (seq 0 (length st)) st) = tgt i.
  Proof.
    intros Hi1 Hi He. pose proof (find_similar_spec (rem (eps (X st i)) i) i st 0) as F.
    destruct (find_similar _ _ _) as [t|]; [destruct F as (F1 & F2 & F3 & F4)|]; unfold IntervalProofs.tgt; rewrite He;
      (destruct (Nat.leb_spec 1 i); [|lia]); cbn [andb].
    - rewrite Nat.sub_0_r in F3. apply similar_iff in F3; [|lia|fold n in F1; lia]. destruct F3 as (G1 & G2 & G3 & G4).
      rewrite G1. destruct (Nat.ltb_spec i (H i)); [|lia]. cbn [negb andb].
      destruct (L t) eqn:Lt; cbn [b2n] in G4.
      + assert (Ht : t = S (S i)) by lia. clear G4. subst t.
        destruct (negb (L (S i)) && (H (S i) =? H i)) eqn:A.
        * exfalso. rewrite andb_true_iff, negb_true_iff, Nat.eqb_eq in A. destruct A as [A1 A2].
          apply (F4 (S i)); [lia|lia|]. rewrite Nat.sub_0_r. apply similar_iff; [lia|fold n in F1; lia|].
          rewrite A1. cbn [b2n]. repeat split; auto; lia.
        * fold n in F1. destruct (Nat.ltb_spec (S (S i)) n); [|lia]. rewrite Lt, G3, Nat.eqb_refl. reflexivity.
      + assert (Ht : t = S i) by lia. clear G4. subst t. rewrite Lt, G3, Nat.eqb_refl. reflexivity.
    - destruct (negb (L i)) eqn:Li; [|reflexivity]. destruct (Nat.ltb_spec i (H i)) as [Hl|]; [|reflexivity]. cbn [andb].
      apply negb_true_iff in Li. pose proof (Hhi i Hi).
      destruct (negb (L (S i)) && (H (S i) =? H i)) eqn:A.
      + exfalso. rewrite andb_true_iff, negb_true_iff, Nat.eqb_eq in A. destruct A as [A1 A2].
        apply (F (S i)); [fold n; lia|lia|]. rewrite Nat.sub_0_r. apply similar_iff; [lia|lia|].
        rewrite A1. cbn [b2n]. repeat split; auto; lia.
      + destruct ((S (S i) <? n) && L (S (S i)) && (H (S (S i)) =? H i)) eqn:B; [|reflexivity]. exfalso.
        rewrite !andb_true_iff, Nat.ltb_lt, Nat.eqb_eq in B. destruct B as [[B1 B2] B3].
        apply (F (S (S i))); [fold n; lia|lia|]. rewrite Nat.sub_0_r. apply similar_iff; [lia|lia|].
        rewrite B2. cbn [b2n]. repeat split; auto; lia.
  Qed.

  Definition opt_list (o : option nat) : list nat := match o with Some t => [t] | None => [] end.
  Definition D (k : nat) : list nat := flat_map (fun s => opt_list (tgt s)) (seq 0 k).
  Lemma D_S k : D (S k) = D k ++ opt_list (tgt k).
  Proof. unfold D. rewrite seq_S, flat_map_app. cbn [flat_map Nat.add]. rewrite app_nil_r. reflexivity. Qed.
  Lemma filter_lt_S u l : length (filter (fun d => d <? S u) l) = length (filter (fun d => d <? u) l) + length (filter (fun d => d =? u) l).
  Proof.
    induction l as [|d l IH]; cbn [filter]; [reflexivity|].
    destruct (Nat.ltb_spec d (S u)), (Nat.ltb_spec d u), (Nat.eqb_spec d u); cbn [length]; lia.
  Qed.
  Lemma src_lt t s : src t = Some s -> s < t.
  Proof. intros E. destruct (src_some _ _ _ _ _ _ E). lia. Qed.
  Lemma D_count u k : k <= n -> length (filter (fun d => d =? u) (D k)) = match src u with Some s => b2n (s <? k) | None => 0 end.
  Proof.
    induction k as [|k IH]; intros Hk.
    - cbn. destruct (src u); reflexivity.
    - rewrite D_S, filter_app, app_length, IH by lia.
      pose proof (src_iff n L emp H Hhi Htr Hlp u k ltac:(lia)) as E.
      destruct (tgt k) as [t|]; cbn [opt_list filter length].
      + destruct (Nat.eqb_spec t u) as [->|Hne]; cbn [length].
        * rewrite (proj2 E eq_refl). rewrite Nat.ltb_irrefl. destruct (Nat.ltb_spec k (S k)); cbn [b2n]; lia.
        * destruct (src u) as [s|]; [|reflexivity]. assert (s <> k) by (intros ->; destruct E as [E _]; specialize (E eq_refl); congruence).
          destruct (Nat.ltb_spec s k), (Nat.ltb_spec s (S k)); cbn [b2n]; lia.
      + destruct (src u) as [s|]; [|reflexivity]. assert (s <> k) by (intros ->; destruct E as [E _]; specialize (E eq_refl); congruence).
        destruct (Nat.ltb_spec s k), (Nat.ltb_spec s (S k)); cbn [b2n]; lia.
  Qed.
  Lemma D_cnt u k : u <= k -> k <= n -> length (filter (fun d => d <? u) (D k)) = cnt u.
  Proof.
    intros Hu Hk. induction u as [|u IH].
    - cbn [IntervalProofs.cnt]. induction (D k) as [|d l IHl]; [reflexivity|]. exact IHl.
    - rewrite filter_lt_S, IH, D_count by lia. cbn [IntervalProofs.cnt]. f_equal. unfold IntervalProofs.isdel.
      destruct (src u) as [s|] eqn:E; [|reflexivity]. apply src_lt in E. destruct (Nat.ltb_spec s k); [reflexivity|lia].
  Qed.
  Lemma D_len : length (D n) = cnt n.
  Proof.
    rewrite <- (D_cnt n n) by lia. f_equal. symmetry. apply filter_all. intros d Hd. unfold D in Hd.
    apply in_flat_map in Hd. destruct Hd as (s & Hs & Hd). apply in_seq in Hs. destruct (tgt s) as [t|] eqn:E; [|destruct Hd].
    destruct Hd as [<-|[]]. pose proof (tgt_lt n L emp H Hhi Htr Hlp s t ltac:(lia) E). apply Nat.ltb_lt. lia.
  Qed.

  Record inv (k : nat) (p : prune_state) : Prop := {
    v_map : forall t, nth_error (state_map p) t = if t <? n then Some (if t <? k then M t else
              match src t with Some s => if s <? k then s else t | None => t end) else None;
    v_from : forall q, nth_error (state_map_from p) q = if q <? n then
              Some (match src q with Some s => if s <? k then None else Some (fin k q) | None => Some (fin k q) end) else None;
    v_del : deleted p = D k }.

  Lemma step_inv k p : k < n -> inv k p -> exists p', prune_step nblk st p (k, X st k) = Ok p' /\ inv (S k) p'.
  Proof.
    intros Hk [I1 I2 I3].
    assert (Hlm : length (state_map p) = n).
    { apply nth_len. intros t. rewrite I1. destruct (Nat.ltb_spec t n); split; [auto|discriminate|congruence|lia]. }
    assert (Hlf : length (state_map_from p) = n).
    { apply nth_len. intros t. rewrite I2. destruct (Nat.ltb_spec t n); split; [auto|discriminate|congruence|lia]. }
    unfold prune_step.
    assert (E1 : index (state_map p) k = Ok (base k)).
    { apply index_Ok. rewrite I1. destruct (Nat.ltb_spec k n); [|lia]. rewrite Nat.ltb_irrefl. unfold IntervalProofs.base.
      destruct (src k) as [s|] eqn:E; [|reflexivity]. apply src_lt in E. destruct (Nat.ltb_spec s k); [reflexivity|lia]. }
    rewrite E1. cbn [bind]. rewrite I3, D_cnt by lia.
    pose proof (M_ok n L emp H Hhi Htr Hlp k Hk) as EM.
    unfold checked_sub. destruct (Nat.leb_spec (cnt k) (base k)); [|lia]. cbn [bind].
    change (base k - cnt k) with (M k). cbv zeta. cbn [state_map state_map_from deleted].
    assert (Hmap : forall t, nth_error (upd (state_map p) k (M k)) t = if t <? n then Some (if t <? S k then M t else
              match src t with Some s => if s <? k then s else t | None => t end) else None).
    { intros t. rewrite nth_error_upd. destruct (Nat.eqb_spec k t) as [<-|Hne].
      - rewrite Hlm. destruct (Nat.ltb_spec k n); [|lia]. destruct (Nat.ltb_spec k (S k)); [reflexivity|lia].
      - rewrite I1. destruct (Nat.ltb_spec t n); [|reflexivity]. destruct (Nat.ltb_spec t k), (Nat.ltb_spec t (S k)); try lia; reflexivity. }
    assert (Hnone : tgt k = None -> inv (S k) (mkPrune (upd (state_map p) k (M k)) (state_map_from p) (D k))).
    { intros Et. split; cbn [state_map state_map_from deleted].
      - intros t. rewrite Hmap. destruct (Nat.ltb_spec t n); [|reflexivity]. destruct (Nat.ltb_spec t (S k)); [reflexivity|].
        destruct (src t) as [s|] eqn:E; [|reflexivity]. destruct (src_some _ _ _ _ _ _ E) as [E2 _].
        assert (s <> k) by congruence. destruct (Nat.ltb_spec s k), (Nat.ltb_spec s (S k)); try lia; reflexivity.
      - intros q. rewrite I2. destruct (Nat.ltb_spec q n); [|reflexivity]. cbn [IntervalProofs.fin]. rewrite Et.
        destruct (src q) as [s|] eqn:E; [|reflexivity]. destruct (src_some _ _ _ _ _ _ E) as [E2 _].
        assert (s <> k) by congruence. destruct (Nat.ltb_spec s k), (Nat.ltb_spec s (S k)); try lia; reflexivity.
      - rewrite D_S, Et. cbn. rewrite app_nil_r. reflexivity. }
    destruct (Nat.eqb_spec k 0) as [->|Hk0].
    { eexists. split; [reflexivity|]. apply Hnone. reflexivity. }
    fold (isemp st k). change (isemp st k) with (emp k). destruct (emp k) eqn:Ee; cbn [negb].
    2:{ eexists. split; [reflexivity|]. apply Hnone. unfold IntervalProofs.tgt. rewrite Ee, andb_false_r. reflexivity. }
    unfold chk. fold n in Hcap. destruct (Nat.ltb_spec k (32 * nblk)); [|lia]. cbn [bind].
    rewrite find_tgt by (auto; lia). destruct (tgt k) as [t|] eqn:Et; [|eexists; split; [reflexivity|apply Hnone; reflexivity]].
    eexists. split; [reflexivity|]. pose proof (tgt_lt n L emp H Hhi Htr Hlp k t Hk Et) as Ht.
    assert (Hsrc : forall q s, src q = Some s -> (s = k <-> q = t)).
    { intros q s E. destruct (src_some _ _ _ _ _ _ E) as [E2 _]. split; [intros ->; congruence|].
      intros ->. pose proof (src_iff n L emp H Hhi Htr Hlp t k Hk) as [_ E3]. specialize (E3 Et). congruence. }
    assert (Est : src t = Some k) by (apply src_iff; auto).
    split; cbn [state_map state_map_from deleted].
    - intros q. rewrite nth_error_upd, upd_length, Hlm. destruct (Nat.eqb_spec t q) as [<-|Hne].
      + destruct (Nat.ltb_spec t n); [|lia]. destruct (Nat.ltb_spec t (S k)); [lia|]. rewrite Est.
        destruct (Nat.ltb_spec k (S k)); [reflexivity|lia].
      + rewrite Hmap. destruct (Nat.ltb_spec q n); [|reflexivity]. destruct (Nat.ltb_spec q (S k)); [reflexivity|].
        destruct (src q) as [s|] eqn:E; [|reflexivity]. specialize (Hsrc _ _ E).
        assert (s <> k) by (intros F; apply Hne; symmetry; apply Hsrc; exact F).
        destruct (Nat.ltb_spec s k), (Nat.ltb_spec s (S k)); try lia; reflexivity.
    - intros q. rewrite nth_error_map, nth_error_upd, Hlf. destruct (Nat.eqb_spec t q) as [<-|Hne].
      + destruct (Nat.ltb_spec t n); [|lia]. cbn [option_map]. rewrite Est. destruct (Nat.ltb_spec k (S k)); [reflexivity|lia].
      + rewrite I2. destruct (Nat.ltb_spec q n); [|reflexivity]. cbn [option_map IntervalProofs.fin]. rewrite Et. f_equal.
        assert (Hf : (if fin k q =? k then Some t else Some (fin k q)) = Some (if fin k q =? k then t else fin k q)) by (destruct (_ =? _); reflexivity).
        destruct (src q) as [s|] eqn:E; [|exact Hf]. specialize (Hsrc _ _ E).
        assert (s <> k) by (intros F; apply Hne; symmetry; apply Hsrc; exact F).
        destruct (Nat.ltb_spec s k), (Nat.ltb_spec s (S k)); try lia; [reflexivity|exact Hf].
    - rewrite D_S, Et. reflexivity.
  Qed.

  Lemma fold_inv d : forall k p, k + d = n -> inv k p ->
    exists p', foldM (prune_step nblk st) (combine (seq k d) (skipn k st)) p = Ok p' /\ inv n p'.
  Proof.
    induction d as [|d IH]; intros k p Hk Hi.
    - exists p. split; [reflexivity|]. replace n with k by lia. exact Hi.
    - destruct (step_inv k p ltac:(lia) Hi) as (p1 & E1 & I1). destruct (IH (S k) p1 ltac:(lia) I1) as (p2 & E2 & I2).
      exists p2. split; [|exact I2].
      assert (Hsk : skipn k st = X st k :: skipn (S k) st).
      { clear - Hk. unfold X. revert k Hk. subst n. induction st as [|x l IHl]; intros k Hk; [cbn in Hk; lia|].
        destruct k as [|k]; [reflexivity|]. cbn [skipn nth]. apply IHl. cbn [length] in Hk. lia. }
      rewrite Hsk. cbn [seq combine foldM]. rewrite E1. cbn [bind]. exact E2.
  Qed.
  Lemma fold_result : exists p, foldM (prune_step nblk st) (combine (seq 0 (length st)) st) (prune_init (length st)) = Ok p /\ inv n p.
  Proof.
    apply (fold_inv n 0 (prune_init (length st)) eq_refl). fold n. split; cbn [prune_init state_map state_map_from deleted].
    - intros t. destruct (Nat.ltb_spec t n).
      + rewrite nth_error_seq by assumption. f_equal. destruct (src t); reflexivity.
      + apply nth_error_None. rewrite seq_length. lia.
    - intros q. rewrite nth_error_map. destruct (Nat.ltb_spec q n).
      + rewrite nth_error_seq by assumption. cbn. f_equal. destruct (src q); reflexivity.
      + replace (nth_error (seq 0 n) q) with (@None nat) by (symmetry; apply nth_error_None; rewrite seq_length; lia). reflexivity.
    - reflexivity.
  Qed.

  Variable p : prune_state.
  Hypothesis Hp : inv n p.
  Let smap := state_map p.
  Let slots := somes (state_map_from p).

  Lemma smap_nth t : t < n -> nth_error smap t = Some (M t).
  Proof. intros Ht. unfold smap. rewrite (v_map _ _ Hp). destruct (Nat.ltb_spec t n); [reflexivity|lia]. Qed.
  Lemma smap_inv t m : nth_error smap t = Some m -> t < n /\ m = M t.
  Proof. unfold smap. rewrite (v_map _ _ Hp). destruct (Nat.ltb_spec t n); [|discriminate]. intros [= <-]. auto. Qed.
  Lemma from_nth q : q < n -> nth_error (state_map_from p) q = Some (if isdel q then None else Some (fin n q)).
  Proof.
    intros Hq. rewrite (v_from _ _ Hp). unfold IntervalProofs.isdel. destruct (Nat.ltb_spec q n); [|lia]. f_equal.
    destruct (src q) as [s|] eqn:E; [|reflexivity]. apply src_lt in E. destruct (Nat.ltb_spec s n); [reflexivity|lia].
  Qed.
  Lemma from_len : length (state_map_from p) = n.
  Proof. apply nth_len. intros t. rewrite (v_from _ _ Hp). destruct (Nat.ltb_spec t n); split; [auto|discriminate|congruence|lia]. Qed.
  Lemma somes_cnt k : k <= n -> length (somes (firstn k (state_map_from p))) + cnt k = k.
  Proof.
    induction k as [|k IH]; intros Hk; [reflexivity|]. rewrite (firstn_S _ _ _ (from_nth k ltac:(lia))), somes_app, app_length.
    cbn [IntervalProofs.cnt]. specialize (IH ltac:(lia)). destruct (isdel k); cbn; lia.
  Qed.
  Lemma slots_len : length slots + cnt n = n.
  Proof. unfold slots. rewrite <- (somes_cnt n) at 3 by lia. rewrite <- from_len, firstn_all. reflexivity. Qed.
  Lemma root_base q : isdel q = false -> base q = q.
  Proof. unfold IntervalProofs.isdel, IntervalProofs.base. destruct (src q); [discriminate|reflexivity]. Qed.
  Lemma slots_nth q : q < n -> isdel q = false -> nth_error slots (M q) = Some (fin n q).
  Proof.
    intros Hq Hd. pose proof (from_nth q Hq) as E. rewrite Hd in E. apply somes_nth in E.
    pose proof (somes_cnt q ltac:(lia)). pose proof (M_ok n L emp H Hhi Htr Hlp q Hq). rewrite (root_base q Hd) in *.
    replace (M q) with (length (somes (firstn q (state_map_from p)))) by lia. exact E.
  Qed.
  Lemma slots_inv m z : nth_error slots m = Some z -> exists q, q < n /\ isdel q = false /\ M q = m /\ z = fin n q.
  Proof.
    intros Hm. destruct (somes_nth_inv _ _ _ Hm) as (q & E1 & E2).
    assert (Hq : q < n) by (rewrite <- from_len; eapply nth_lt; exact E1). rewrite (from_nth q Hq) in E1.
    destruct (isdel q) eqn:Hd; [discriminate|]. injection E1 as <-. exists q. repeat split; auto.
    pose proof (somes_cnt q ltac:(lia)). pose proof (M_ok n L emp H Hhi Htr Hlp q Hq). rewrite (root_base q Hd) in *. lia.
  Qed.
  Lemma M_slots t : t < n -> M t < length slots.
  Proof.
    intros Ht. destruct (root_of n L emp H Hhi Htr Hlp t Ht) as (r & R1 & R2 & R3 & _). rewrite <- R3.
    eapply nth_lt. apply slots_nth; [lia|exact R2].
  Qed.

  (** The last state keeps its place. *)
  Lemma last_hi : H (n - 1) = n - 1 /\ L (n - 1) = false /\ emp (n - 1) = false.
  Proof.
    pose proof (ia_ne _ _ _ Hia) as Hn. fold n in Hn. pose proof (Hhi (n - 1) ltac:(lia)).
    destruct (ia_fin _ _ _ Hia) as [F _]. split; [lia|]. split; [|exact F].
    destruct (L (n - 1)) eqn:E; [|reflexivity]. destruct (Hlp (n - 1) ltac:(lia) E) as (_ & _ & _ & G & _). change (isemp st (length st - 1) = true) in G. congruence.
  Qed.
  Lemma M_last : M (n - 1) = length slots - 1.
  Proof.
    pose proof (ia_ne _ _ _ Hia) as Hn. fold n in Hn. pose proof slots_len as Hl.
    assert (Hc : forall k, S k = n -> cnt n = cnt k + b2n (isdel k)).
    { intros k Hk. change (cnt k + b2n (isdel k)) with (cnt (S k)). rewrite Hk. reflexivity. }
    rewrite (Hc (n - 1) ltac:(lia)) in Hl. destruct last_hi as (L1 & L2 & L3).
    pose proof (M_ok n L emp H Hhi Htr Hlp (n - 1) ltac:(lia)) as E.
    destruct (kind n L emp H Hhi Htr Hlp (n - 1) ltac:(lia)) as [[E1 E2]|[(s & E0 & A & E1 & E2 & _)|(s & E0 & B & E1 & E2 & _)]].
    - rewrite E1 in Hl. cbn [b2n] in Hl. lia.
    - rewrite E1 in Hl. cbn [b2n] in Hl. lia.
    - rewrite E0 in L2. pose proof (sB_L2 _ _ _ _ _ B). congruence.
  Qed.

  Lemma merge_ok_ia : merge_ok st smap slots = true.
  Proof.
    pose proof (ia_ne _ _ _ Hia) as Hn. fold n in Hn. unfold merge_ok. rewrite !andb_true_iff. split; [split|].
    - apply forallb_forall. intros [u x] Hin. apply in_combine_seq in Hin. rewrite Nat.sub_0_r in Hin. destruct Hin as [_ Hx].
      assert (Hu : u < n) by (eapply nth_lt; exact Hx). cbn [fst snd]. unfold merged_ok. rewrite (smap_nth u Hu).
      destruct (root_of n L emp H Hhi Htr Hlp u Hu) as (r & R1 & R2 & R3 & R4 & R5 & R6).
      rewrite <- R3, (slots_nth r ltac:(lia) R2), R3. apply orb_true_iff.
      destruct (end_of n L emp H Hhi Htr Hlp (n - u) u r ltac:(lia) ltac:(lia) R4) as (Z1 & Z2 & Z3 & Z4 & Z5).
      set (z := fin n r) in *. destruct Z5 as [Z5|(Z5 & Z6 & Z7 & Z8 & Z9)]; [left; apply Nat.eqb_eq; exact Z5|right].
      rewrite (X_nth st z) by (fold n; lia). rewrite !andb_true_iff.
      assert (Ex : X st u = x) by (apply X_of; exact Hx).
      pose proof (ia_eps _ _ _ Hia u Hu) as Eu. pose proof (ia_eps _ _ _ Hia z ltac:(fold n; lia)) as Ez. rewrite Ex in Eu.
      pose proof (Hhi z ltac:(lia)) as Hz. pose proof (Hhi u Hu) as Hu2.
      split; [split|].
      + unfold emp, isemp in Z5. rewrite Ex in Z5. exact Z5.
      + apply Eu. rewrite Z6. cbn [b2n]. lia.
      + apply forallb_forall. intros t Ht. apply in_ones in Ht. apply Eu in Ht. rewrite Z6 in Ht. cbn [b2n] in Ht.
        apply orb_true_iff. destruct (Nat.lt_ge_cases (t + b2n (L z)) z) as [C|C].
        * right. rewrite (smap_nth t) by lia. apply Nat.eqb_eq. apply Z9; [lia|exact C].
        * left. apply Ez. lia.
    - apply forallb_forall. intros z Hz. apply In_nth_error in Hz. destruct Hz as [m Hm]. destruct (slots_inv _ _ Hm) as (q & Q1 & Q2 & Q3 & ->).
      apply Nat.ltb_lt. fold n.
      destruct (end_of n L emp H Hhi Htr Hlp (n - q) q q ltac:(lia) ltac:(lia) ltac:(apply fin_id; auto)) as (Z1 & _). lia.
    - fold n. rewrite (smap_nth 0 Hn), (smap_nth (n - 1)) by lia. change (M 0) with 0.
      assert (Hs0 : nth_error slots 0 = Some 0).
      { pose proof (slots_nth 0 Hn eq_refl) as E. change (M 0) with 0 in E. rewrite E. f_equal.
        eapply (fin_stay n L emp H) with (k := 0); [auto|auto|auto|lia|reflexivity|]. intros j _ Ht <-. apply Ht. reflexivity. }
      rewrite Hs0, M_last. apply Nat.eqb_eq. apply nth_lt in Hs0. lia.
  Qed.
  Lemma prune_safe_ia0 : length slots + length (deleted p) = length st.
  Proof. rewrite (v_del _ _ Hp), D_len. exact slots_len. Qed.

  (** ** The result *)
  Definition rt (m : nat) : nat :=
    match find (fun q => negb (isdel q) && (M q =? m)) (seq 0 n) with Some q => q | None => 0 end.
  Lemma rt_ok m : m < length slots -> rt m < n /\ isdel (rt m) = false /\ M (rt m) = m.
  Proof.
    intros Hm. destruct (nth_some _ _ Hm) as [z Hz]. destruct (slots_inv _ _ Hz) as (q & Q1 & Q2 & Q3 & _).
    unfold rt. destruct (find _ _) as [q'|] eqn:E.
    - apply find_some in E. destruct E as [E1 E2]. apply in_seq in E1. rewrite andb_true_iff, negb_true_iff, Nat.eqb_eq in E2. split; [lia|]. exact E2.
    - exfalso. pose proof (find_none _ _ E q ltac:(apply in_seq; lia)) as F.
      cbn in F. rewrite Q2, Q3, Nat.eqb_refl in F. discriminate.
  Qed.
  Lemma root_uniq q q' : q < n -> q' < n -> isdel q = false -> isdel q' = false -> M q = M q' -> q = q'.
  Proof.
    intros Hq Hq' Hd Hd' E. destruct (Nat.lt_trichotomy q q') as [C|[C|C]]; [|exact C|].
    - pose proof (M_root_lt n L emp H Hhi Htr Hlp q' q Hq' Hd' C). lia.
    - pose proof (M_root_lt n L emp H Hhi Htr Hlp q q' Hq Hd C). lia.
  Qed.
  Lemma rt_M q : q < n -> isdel q = false -> rt (M q) = q.
  Proof.
    intros Hq Hd. destruct (rt_ok (M q) (M_slots q Hq)) as (R1 & R2 & R3). apply root_uniq; auto.
  Qed.
  (** The content of a slot. *)
  Lemma content m : m < length slots -> exists z, nth_error slots m = Some z /\ rt m <= z < n /\ tgt z = None /\ M z = m /\
    H z = H (rt m) /\ fin n (rt m) = z /\
    (z = rt m \/ (emp (rt m) = true /\ L (rt m) = false /\ rt m < z /\ forall t, rt m <= t -> t + b2n (L z) < z -> M t = m)).
  Proof.
    intros Hm. destruct (rt_ok m Hm) as (R1 & R2 & R3). exists (fin n (rt m)).
    destruct (end_of n L emp H Hhi Htr Hlp (n - rt m) (rt m) (rt m) ltac:(lia) ltac:(lia) ltac:(apply fin_id; auto)) as (Z1 & Z2 & Z3 & Z4 & Z5).
    split; [rewrite <- R3 at 1; apply slots_nth; assumption|]. repeat split; try assumption; try lia; try congruence.
    destruct Z5 as [Z5|(Z5 & Z6 & Z7 & Z8 & Z9)]; [left; exact Z5|right]. repeat split; auto. intros t Ht Ht'. rewrite (Z9 t Ht Ht'). exact R3.
  Qed.
  (** The slot that represents state [u]. *)
  Lemma slot_of u : u < n -> let r := rt (M u) in r <= u /\ H r = H u /\ (r < u -> L r = false) /\
    exists z, nth_error slots (M u) = Some z /\ (z = u \/ (L u = false /\ tgt u <> None)) /\ u <= z < n /\ (tgt u = None -> z = u).
  Proof.
    intros Hu. cbv zeta. destruct (root_of n L emp H Hhi Htr Hlp u Hu) as (r & R1 & R2 & R3 & R4 & R5 & R6).
    rewrite <- R3, (rt_M r ltac:(lia) R2). split; [exact R1|]. split; [exact R5|]. split; [exact R6|].
    exists (fin n r). split; [apply slots_nth; [lia|exact R2]|].
    destruct (end_of n L emp H Hhi Htr Hlp (n - u) u r ltac:(lia) ltac:(lia) R4) as (Z1 & Z2 & Z3 & Z4 & Z5).
    split; [destruct Z5 as [Z5|(Z5 & Z6 & Z7 & Z8 & Z9)]; auto|]. split; [exact Z1|]. intros Ht.
    destruct Z5 as [Z5|(Z5 & Z6 & Z7 & Z8 & Z9)]; [exact Z5|contradiction].
  Qed.

  Variable st' : list state.
  Hypothesis Hrel : Forall2 (fun r y => exists x, nth_error st r = Some x /\
     chars y = chars x /\ nth_error smap (next x) = Some (next y) /\
     forall t, mem (eps y) t = true <-> exists u, mem (eps x) u = true /\ nth_error smap u = Some t) slots st'.

  Lemma st'_len : length st' = length slots.
  Proof. symmetry. eapply Forall2_len. exact Hrel. Qed.
  Lemma st'_nth m z : nth_error slots m = Some z -> isemp st' m = emp z /\ next (X st' m) = M (next (X st z)) /\ next (X st z) < n /\
    forall j, mem (eps (X st' m)) j = true <-> exists u, (z <= u + b2n (L z) /\ u <= H z) /\ u < n /\ M u = j.
  Proof.
    intros Hm. destruct (slot_rel st smap slots st' Hrel m z Hm) as (x & y & Hx & Hy & Hc & Hn & He).
    assert (Hz : z < n) by (eapply nth_lt; exact Hx).
    unfold isemp, emp. rewrite (X_of _ _ _ Hy), (X_of _ _ _ Hx). destruct (smap_inv _ _ Hn) as [N1 N2].
    unfold isemp. rewrite (X_of _ _ _ Hx), Hc. repeat split; auto.
    - intros Hj. apply He in Hj. destruct Hj as (u & U1 & U2). destruct (smap_inv _ _ U2) as [U3 U4]. exists u.
      rewrite <- (X_of _ _ _ Hx) in U1. apply (ia_eps _ _ _ Hia z Hz) in U1. auto.
    - intros (u & U1 & U2 & U3). apply He. exists u. split; [|rewrite (smap_nth u U2); f_equal; exact U3].
      rewrite <- (X_of _ _ _ Hx). apply (ia_eps _ _ _ Hia z Hz). exact U1.
  Qed.
  Definition L' (m : nat) : bool := L (rt m).
  Definition H' (m : nat) : nat := M (H (rt m)).

  Lemma isB_not_top q : isB n L emp H (S q) -> H q = q.
  Proof. intros (s & E & B & _). injection E as ->. apply B. Qed.

  (** Roots between a root and its top. *)
  Lemma between m j : m < length slots -> m < j -> j <= H' m -> rt m < rt j <= H (rt m) /\ j < length slots.
  Proof.
    intros Hm Hj Hj'. destruct (rt_ok m Hm) as (R1 & R2 & R3). unfold H' in Hj'.
    pose proof (Hhi _ R1) as Hh. pose proof (M_slots (H (rt m)) ltac:(lia)) as Hl.
    assert (Hjl : j < length slots) by lia. destruct (rt_ok j Hjl) as (T1 & T2 & T3). split; [|exact Hjl].
    split.
    - destruct (Nat.lt_trichotomy (rt j) (rt m)) as [C|[C|C]]; [|rewrite C in T3; lia|exact C].
      pose proof (M_root_lt n L emp H Hhi Htr Hlp _ _ R1 R2 C). lia.
    - destruct (Nat.le_gt_cases (rt j) (H (rt m))) as [C|C]; [exact C|].
      pose proof (M_root_lt n L emp H Hhi Htr Hlp _ _ T1 T2 C). lia.
  Qed.

  Lemma st'_eps m : m < length slots -> forall j, mem (eps (X st' m)) j = true <-> m <= j + b2n (L' m) /\ j <= H' m.
  Proof.
    intros Hm j. destruct (content m Hm) as (z & Z0 & Z1 & Z2 & Z3 & Z4 & Z6 & Z5). destruct (rt_ok m Hm) as (R1 & R2 & R3).
    destruct (st'_nth m z Z0) as (_ & _ & _ & E). rewrite E. clear E. unfold L', H'. set (q := rt m) in *.
    pose proof (Hhi q R1) as Hq. split.
    - intros (u & U1 & U2 & <-). split; [|apply (M_top n L emp H Hhi Htr Hlp); [exact R1|lia]].
      destruct (Nat.le_gt_cases q u) as [C|C].
      + enough (M q <= M u) by lia. apply (M_mono n L emp H Hhi Htr Hlp); [lia|exact C|].
        intros [-> F]. apply isB_not_top in F. lia.
      + assert (Hz : z = q /\ L q = true /\ q = S u).
        { destruct (L z) eqn:Lz; cbn [b2n] in U1; [|lia]. assert (Hzq : z = q) by lia. split; [exact Hzq|]. split; [rewrite <- Hzq; exact Lz|lia]. }
        destruct Hz as (-> & Lq & Hqu). rewrite Lq. cbn [b2n]. destruct (Hlp q R1 Lq) as (_ & G & _).
        rewrite Hqu in G, R1, R2, R3. rewrite Nat.sub_succ, Nat.sub_0_r in G.
        rewrite (M_root n L emp H Hhi Htr Hlp u R1 R2) in R3; [lia|]. intros F. apply isB_L in F. congruence.
    - intros [J1 J2]. destruct (Nat.lt_trichotomy j m) as [C|[->|C]].
      + destruct (L q) eqn:Lq; cbn [b2n] in J1; [|lia].
        assert (Hzq : z = q) by (destruct Z5 as [Z5|(_ & Z5 & _)]; [exact Z5|congruence]). clear Z6. subst z.
        destruct (Hlp q R1 Lq) as (G1 & G & _). exists (q - 1). rewrite Lq. cbn [b2n]. split; [lia|]. split; [lia|].
        assert (Eq : q = S (q - 1)) by lia. assert (R2' := R2). assert (R3' := R3). rewrite Eq in R2', R3'.
        rewrite (M_root n L emp H Hhi Htr Hlp (q - 1) ltac:(lia) R2') in R3'; [lia|]. intros F. apply isB_L in F. congruence.
      + exists z. pose proof (Hhi z ltac:(lia)). repeat split; [lia|lia|lia|exact Z3].
      + destruct (between m j Hm C J2) as [[B1 B2] B3]. fold q in B1, B2. destruct (rt_ok j B3) as (T1 & T2 & T3).
        exists (rt j). split; [|split; [exact T1|exact T3]]. rewrite Z4. split; [|exact B2].
        destruct Z5 as [->|(_ & _ & Z7 & Z8)]; [lia|].
        destruct (Nat.lt_ge_cases (rt j + b2n (L z)) z) as [C'|C']; [|exact C']. pose proof (Z8 (rt j) ltac:(lia) C'). lia.
  Qed.

  (** A proper state of the result comes from a proper state. *)
  Lemma chr_back m z : m < length slots -> nth_error slots m = Some z ->
    (isemp st' m = false \/ (H' m = m /\ L' m = false)) ->
    (emp z = false \/ (H z = z /\ L z = false)) /\ L z = false.
  Proof.
    intros Hm Hz Hc. destruct (content m Hm) as (z' & Z0 & Z1 & Z2 & Z3 & Z4 & Z6 & Z5). assert (z' = z) by congruence. assert (Z6' := Z6). clear Z6. subst z'. rename Z6' into Z6.
    destruct (st'_nth m z Hz) as (E & _). rewrite E in Hc. unfold H', L' in Hc.
    assert (HL : emp z = false -> L z = false).
    { intros F. destruct (L z) eqn:Lz; [|reflexivity]. destruct (Hlp z ltac:(lia) Lz) as (_ & _ & _ & G & _). congruence. }
    destruct Hc as [Hc|[Hc1 Hc2]]; [auto|].
    destruct (rt_ok m Hm) as (R1 & R2 & R3). pose proof (Hhi _ R1) as Hh. set (q := rt m) in *.
    assert (Hzt : H z = z).
    { pose proof (Hhi z ltac:(lia)) as Hzh. destruct (root_of n L emp H Hhi Htr Hlp (H q) ltac:(lia)) as (r & Q1 & Q2 & Q3 & Q4 & _).
      assert (r = q) by (apply root_uniq; [lia|lia|exact Q2|exact R2|lia]). subst r.
      destruct (end_of n L emp H Hhi Htr Hlp (n - H q) (H q) q ltac:(lia) ltac:(lia) Q4) as (Y1 & _). rewrite Z6 in Y1. lia. }
    assert (Lz : L z = false).
    { destruct (L z) eqn:Lz; [|reflexivity]. destruct (Hlp z ltac:(lia) Lz) as (_ & _ & _ & _ & G). lia. }
    auto.
  Qed.

  (** Walls and entries are kept. *)
  Lemma rt_le m i : m < length slots -> i < n -> m <= M i -> rt m <= i.
  Proof.
    intros Hm Hi Hle. destruct (rt_ok m Hm) as (R1 & R2 & R3). destruct (Nat.le_gt_cases (rt m) i) as [C|C]; [exact C|].
    pose proof (M_root_lt n L emp H Hhi Htr Hlp (rt m) i R1 R2 C). lia.
  Qed.
  Lemma wall_M i : i < n -> L i = false -> wall H i -> wall H' (M i).
  Proof.
    intros Hi Li Hw m Hm. pose proof (M_slots i Hi) as Hl. pose proof (rt_le m i ltac:(lia) Hi Hm) as Hr.
    specialize (Hw _ Hr). unfold H'. apply (M_mono n L emp H Hhi Htr Hlp); [exact Hi|exact Hw|]. intros [_ F]. apply isB_L in F. congruence.
  Qed.
  Lemma entry_root t : t < n -> entry H t -> isdel t = false.
  Proof.
    intros Ht He. destruct (kind' n L emp H Hhi Htr Hlp t Ht) as [[E _]|[(s & -> & A & _)|(s & -> & B & _)]]; [exact E| |]; exfalso.
    - pose proof (He s ltac:(lia)). pose proof (sA_lt _ _ _ _ A). lia.
    - pose proof (He s ltac:(lia)). pose proof (sB_lt _ _ _ _ _ B). lia.
  Qed.
  Lemma entry_M t : t < n -> entry H t -> entry H' (M t).
  Proof.
    intros Ht He m Hm. pose proof (M_slots t Ht) as Hl. destruct (rt_ok m ltac:(lia)) as (R1 & R2 & R3). pose proof (entry_root t Ht He) as Hd.
    assert (Hr : rt m < t).
    { pose proof (rt_le m t ltac:(lia) Ht ltac:(lia)). destruct (Nat.eq_dec (rt m) t) as [E|]; [rewrite E in R3; lia|lia]. }
    unfold H'. apply (M_root_lt n L emp H Hhi Htr Hlp); [exact Ht|exact Hd|]. apply He. exact Hr.
  Qed.
  Lemma far_next_M z t : z < n -> L z = false -> (S z < n -> ~ isA n L emp H (S z)) -> far_next n L H z t ->
    far_next (length st') L' H' (M z) (M t).
  Proof.
    intros Hz Lz HnA (W1 & W2 & W3). split; [apply wall_M; assumption|]. rewrite st'_len. split.
    - intros Hm. destruct (rt_ok _ Hm) as (R1 & R2 & R3). unfold L'.
      assert (Hlt : z < rt (S (M z))).
      { destruct (Nat.le_gt_cases (rt (S (M z))) z) as [C|C]; [|exact C]. exfalso.
        pose proof (M_mono n L emp H Hhi Htr Hlp z Hz _ C) as F. rewrite R3 in F.
        assert (~ (z = S (rt (S (M z))) /\ isB n L emp H z)) by (intros [_ G]; apply isB_L in G; congruence). specialize (F H0). lia. }
      specialize (W2 ltac:(lia)).
      destruct (kind' n L emp H Hhi Htr Hlp (S z) ltac:(lia)) as [[E _]|[A|B]].
      + assert (HnB : ~ isB n L emp H z) by (intros G; apply isB_L in G; congruence).
        pose proof (M_root n L emp H Hhi Htr Hlp z ltac:(lia) E HnB) as EM. rewrite <- EM, rt_M by (auto; lia). exact W2.
      + exfalso. exact (HnA ltac:(lia) A).
      + apply isB_L in B. congruence.
    - destruct W3 as [->|[T1 T2]]; [left; reflexivity|right]. split; [|apply entry_M; [lia|exact T2]].
      split; [|apply M_slots; lia]. apply (M_root_lt n L emp H Hhi Htr Hlp); [lia|apply entry_root; [lia|exact T2]|lia].
  Qed.

  Lemma prune_ia : ia st' L' H'.
  Proof.
    pose proof (ia_ne _ _ _ Hia) as Hn. fold n in Hn. pose proof (M_slots 0 Hn) as Hpos. change (M 0) with 0 in Hpos.
    split; rewrite ?st'_len.
    - exact Hpos.
    - apply st'_eps.
    - intros m Hm. destruct (rt_ok m Hm) as (R1 & R2 & R3). pose proof (Hhi _ R1) as Hh. unfold H'. split.
      + rewrite <- R3 at 1. apply (M_top n L emp H Hhi Htr Hlp); lia.
      + apply M_slots. lia.
    - intros m j Hm [J1 J2]. destruct (Nat.eq_dec m j) as [->|Hne]; [lia|].
      destruct (between m j Hm ltac:(lia) J2) as [[B1 B2] B3]. destruct (rt_ok m Hm) as (R1 & R2 & R3). unfold H'.
      apply (M_top n L emp H Hhi Htr Hlp); [exact R1|]. apply Htr; [exact R1|lia].
    - intros m Hm Lm. unfold L' in Lm. destruct (content m Hm) as (z & Z0 & Z1 & Z2 & Z3 & Z4 & Z6 & Z5). destruct (rt_ok m Hm) as (R1 & R2 & R3).
      set (q := rt m) in *. assert (Hzq : z = q) by (destruct Z5 as [Z5|(_ & Z5 & _)]; [exact Z5|congruence]). clear Z6. subst z.
      destruct (Hlp q R1 Lm) as (G1 & G2 & G3 & G4 & G5).
      assert (Em : m = S (M (q - 1))).
      { rewrite <- R3. assert (Eq : q = S (q - 1)) by lia. assert (R2' := R2). rewrite Eq in R2'. rewrite Eq at 1.
        apply (M_root n L emp H Hhi Htr Hlp); [lia|exact R2'|]. intros F. apply isB_L in F. congruence. }
      destruct (slot_of (q - 1) ltac:(lia)) as (S1 & S2 & S3 & _).
      replace (m - 1) with (M (q - 1)) by lia. split; [lia|]. unfold L', H'. fold q. split; [|split; [|split]].
      + destruct (Nat.eq_dec (rt (M (q - 1))) (q - 1)) as [->|]; [exact G2|]. apply S3. lia.
      + rewrite S2. apply (M_top n L emp H Hhi Htr Hlp); assumption.
      + destruct (st'_nth m q Z0) as (E & _). congruence.
      + pose proof (Hhi q R1) as Hh. enough (M (S q) = S m) by (pose proof (M_top n L emp H Hhi Htr Hlp q (S q) R1 ltac:(lia)); lia).
        rewrite <- R3. assert (HnB : ~ isB n L emp H q).
        { intros (s & _ & _ & F & _). congruence. }
        apply (M_root n L emp H Hhi Htr Hlp); [lia| |exact HnB].
        destruct (kind' n L emp H Hhi Htr Hlp (S q) ltac:(lia)) as [[E _]|[A|B]]; [exact E| |].
        * destruct A as (s & E & A & _). injection E as <-. pose proof (sA_L _ _ _ _ A). congruence.
        * apply isB_L in B. destruct (Hlp (S q) ltac:(lia) B) as (_ & F & _). rewrite Nat.sub_succ, Nat.sub_0_r in F. congruence.
    - intros m Hm Hc. destruct (content m Hm) as (z & Z0 & Z1 & Z2 & Z3 & Z4 & Z6 & Z5). destruct (rt_ok m Hm) as (R1 & R2 & R3).
      destruct (chr_back m z Hm Z0 Hc) as [Cz Lz]. clear Z6. destruct (st'_nth m z Z0) as (E1 & E2 & E3 & _). rewrite E2.
      assert (HnB : ~ isB n L emp H z) by (intros F; apply isB_L in F; congruence).
      assert (HnA : S z < n -> ~ isA n L emp H (S z)).
      { intros Hz F. apply (isA_tgt n L emp H Hhi Htr Hlp) in F; [congruence|lia]. }
      destruct (ia_n1 _ _ _ Hia z ltac:(fold n; lia) Cz) as [[N1 N2]|[(N1 & N2 & N3 & N4 & N5)|N1]].
      + fold n in N2. rewrite N1. destruct (kind' n L emp H Hhi Htr Hlp (S z) N2) as [[E _]|[A|B]]; [|exfalso; exact (HnA N2 A)|].
        * left. rewrite (M_root n L emp H Hhi Htr Hlp z N2 E HnB), Z3. split; [reflexivity|].
          rewrite <- Z3, <- (M_root n L emp H Hhi Htr Hlp z N2 E HnB). apply M_slots. exact N2.
        * right; left. destruct (isB_tgt n L emp H _ B) as (s & Es & Et & Bs). injection Es as ->.
          destruct (M_stepB n L emp H Hhi Htr Hlp s ltac:(lia) Et) as (D1 & D2 & D3).
          assert (Eq : rt m = S s) by (rewrite <- Z3; apply rt_M; [lia|exact D1]).
          rewrite D3. split; [lia|]. unfold H', L'. rewrite Eq, (sB_H1 _ _ _ _ _ Bs). split; [lia|].
          replace (m - 1) with (M s) by lia. destruct (slot_of s ltac:(lia)) as (S1 & S2 & S3 & _).
          split; [|split].
          -- rewrite S2. pose proof (sB_lt _ _ _ _ _ Bs) as Hlt. pose proof (Hhi s ltac:(lia)).
             destruct (M_rootB n L emp H Hhi Htr Hlp (S (S s)) ltac:(lia) B) as [_ D4].
             pose proof (M_top n L emp H Hhi Htr Hlp s (S (S (S s))) ltac:(lia) ltac:(lia)). lia.
          -- destruct (Nat.eq_dec (rt (M s)) s) as [->|]; [apply Bs|apply S3; lia].
          -- destruct (slot_of (S (S s)) ltac:(lia)) as (_ & _ & _ & z' & Y1 & Y2 & _). rewrite D3 in Y1.
             destruct (st'_nth _ _ Y1) as (-> & _). destruct Y2 as [->|[Y2 _]]; [|pose proof (sB_L2 _ _ _ _ _ Bs); congruence].
             apply (Hlp (S (S s)) ltac:(lia) (sB_L2 _ _ _ _ _ Bs)).
      + right; left. assert (Hz1 : z = S (z - 1)) by lia. fold emp in N5.
        assert (Hzd : isdel z = false).
        { destruct (kind' n L emp H Hhi Htr Hlp z ltac:(lia)) as [[E _]|[A|B]]; [exact E| |contradiction].
          destruct A as (s & Es & A & _). exfalso. pose proof (sA_H _ _ _ _ A) as F. subst z. rewrite Nat.sub_succ, Nat.sub_0_r in N3. lia. }
        assert (HnB1 : ~ isB n L emp H (z - 1)) by (intros F; apply isB_L in F; congruence).
        pose proof (Hhi (z - 1) ltac:(lia)) as Hh1.
        assert (EM : M z = S (M (z - 1))).
        { rewrite Hz1 at 1. apply (M_root n L emp H Hhi Htr Hlp); [lia|rewrite <- Hz1; exact Hzd|exact HnB1]. }
        assert (Eq : rt m = z) by (rewrite <- Z3; apply rt_M; [lia|exact Hzd]).
        assert (HLS : L (S z) = false).
        { destruct (L (S z)) eqn:F; [|reflexivity]. pose proof (ia_n2 _ _ _ Hia (S z) ltac:(fold n; lia) F) as G.
          rewrite Nat.sub_succ, Nat.sub_0_r in G. specialize (G Cz). lia. }
        replace (next (X st z)) with (z - 1) by lia. unfold H', L'. rewrite Eq, N2. split; [lia|]. split; [lia|].
        replace (m - 1) with (M (z - 1)) by lia. destruct (slot_of (z - 1) ltac:(lia)) as (S1 & S2 & S3 & z' & Y1 & _ & _ & Y2).
        split; [|split].
        * rewrite S2. pose proof (M_top n L emp H Hhi Htr Hlp (z - 1) (S z) ltac:(lia) N3) as F.
          rewrite (M_root n L emp H Hhi Htr Hlp z ltac:(lia)) in F; [lia| |exact HnB].
          destruct (kind' n L emp H Hhi Htr Hlp (S z) ltac:(lia)) as [[E _]|[A|B]]; [exact E|exfalso; exact (HnA ltac:(lia) A)|].
          apply isB_L in B. congruence.
        * destruct (Nat.eq_dec (rt (M (z - 1))) (z - 1)) as [->|]; [exact N4|apply S3; lia].
        * assert (Ht : tgt (z - 1) = None).
          { destruct (tgt (z - 1)) as [t|] eqn:Et; [|reflexivity]. exfalso.
            destruct (tgt_some n L emp H Hhi Htr Hlp (z - 1) t ltac:(lia) Et) as [[_ A]|[_ B]].
            - pose proof (sA_H _ _ _ _ A) as F. rewrite <- Hz1 in F. lia.
            - pose proof (sB_L2 _ _ _ _ _ B) as F. rewrite <- Hz1 in F. congruence. }
          rewrite (Y2 Ht) in Y1. destruct (st'_nth _ _ Y1) as (-> & _). exact N5.
      + right; right. rewrite <- Z3. rewrite <- st'_len. apply far_next_M; [lia|exact Lz|exact HnA|exact N1].
    - intros m Hm Lm Hc. unfold L' in Lm. destruct (content m Hm) as (z & Z0 & Z1 & Z2 & Z3 & Z4 & Z6 & Z5). destruct (rt_ok m Hm) as (R1 & R2 & R3).
      set (q := rt m) in *. assert (Hzq : z = q) by (destruct Z5 as [Z5|(_ & Z5 & _)]; [exact Z5|congruence]). clear Z6. subst z.
      destruct (Hlp q R1 Lm) as (G1 & G2 & G3 & G4 & G5). assert (Eq : q = S (q - 1)) by lia.
      assert (Em : m = S (M (q - 1))).
      { rewrite <- R3. assert (R2' := R2). rewrite Eq in R2'. rewrite Eq at 1.
        apply (M_root n L emp H Hhi Htr Hlp); [lia|exact R2'|]. intros F. apply isB_L in F. congruence. }
      assert (Ht : tgt (q - 1) = None).
      { destruct (tgt (q - 1)) as [t|] eqn:Et; [|reflexivity]. exfalso.
        destruct (tgt_some n L emp H Hhi Htr Hlp (q - 1) t ltac:(lia) Et) as [[_ A]|[_ B]].
        - pose proof (sA_L1 _ _ _ _ A) as F. rewrite <- Eq in F. congruence.
        - pose proof (sB_L1 _ _ _ _ _ B) as F. rewrite <- Eq in F. congruence. }
      destruct (slot_of (q - 1) ltac:(lia)) as (_ & _ & _ & z' & Y1 & _ & _ & Y2). rewrite (Y2 Ht) in Y1.
      replace (m - 1) with (M (q - 1)) in * by lia.
      destruct (chr_back _ _ (nth_lt _ _ _ Y1) Y1 Hc) as [Cq _]. destruct (st'_nth _ _ Y1) as (_ & -> & _).
      rewrite (ia_n2 _ _ _ Hia q R1 Lm Cq). exact R3.
    - destruct last_hi as (L1 & L2 & L3). destruct (slot_of (n - 1) ltac:(lia)) as (_ & _ & _ & z & Y1 & _ & Y2 & _).
      assert (z = n - 1) by lia. subst z. rewrite M_last in Y1. destruct (st'_nth _ _ Y1) as (-> & -> & _).
      destruct (ia_fin _ _ _ Hia) as [F1 F2]. fold n in F1, F2. rewrite F2. split; [exact F1|exact M_last].
  Qed.
End fold.
