(** Where the states of a pattern with alternatives lie (expression.rs:86-193), and what they reach. *)
From Verif Require Export AltCollapse FlatBuild.

(** The positions of the alternatives. *)
Fixpoint starts (ts : list ast) (o : nat) : list nat :=
  match ts with [] => [] | t :: ts' => o :: starts ts' (o + width t) end.

(** The states [l] of a group of [w] states repeated [mn] to [k] times, with the states [l'] of its
    copies. *)
Definition group_form (w mn k o : nat) (l' l : list (bool * state)) : Prop :=
  exists e ef, l = (negb (mn =? k), mkState e EMPTY 0) :: l' ++ [(false, mkState ef EMPTY 0)] /\
    (forall j, mem e j = true <-> (exists i, i < k /\ i <= k - mn /\ j = S o + i * w) \/ (mn = 0 /\ j = S o + k * w)) /\
    (forall j, mem ef j = true <-> j = S o + k * w + 1).

(** The states of the pattern from position [o] on; its last class leads to [x]. Marked: the states in
    front of alternatives, and those in front of groups that are repeated a varying number of times. *)
Fixpoint lay (a : ast) (o x : nat) (l : list (bool * state)) {struct a} : Prop :=
  match a with
  | CharClass cs => l = [(false, new_transition cs x)]
  | Sequence ts =>
      (fix go (ts : list ast) (o : nat) (l : list (bool * state)) : Prop :=
         match ts with
         | [] => l = []
         | t :: ts' => exists l1 l2, l = l1 ++ l2 /\ lay t o (match ts' with [] => x | _ => o + width t end) l1 /\ go ts' (o + width t) l2
         end) ts o l
  | Alternatives ts =>
      exists e l', l = (true, mkState e EMPTY 0) :: l' /\ (forall j, mem e j = true <-> In j (starts ts (S o))) /\
        (fix go (ts : list ast) (p : nat) (l : list (bool * state)) : Prop :=
           match ts with
           | [] => l = []
           | t :: ts' => exists l1 l2, l = l1 ++ l2 /\ lay t p (o + width a) l1 /\ go ts' (p + width t) l2
           end) ts (S o) l'
  | Repetition t mn mx =>
      match mn, mx with
      | 0, Some 0 => l = []
      | 1, Some 1 => if one_class t then l = [(false, new_transition (class_of t) x)] else lay t o x l
      | _, _ =>
          let k := Nat.max 1 (Nat.max mn (match mx with Some m => m | None => mn end)) in
          if one_class t
          then exists l', l = map (pair false) l' /\ rep_form (class_of t) o k l' /\
                 (forall y, nth_error l' 0 = Some y -> (mem (eps y) (o + k + 1) = true <-> mn = 0))
          else exists l', group_form (width t) mn k o l' l /\
                 (fix go (k p : nat) (l : list (bool * state)) : Prop :=
                    match k with
                    | 0 => l = []
                    | S k' => exists l1 l2, l = l1 ++ l2 /\ lay t p (p + width t) l1 /\ go k' (p + width t) l2
                    end) k (S o) l'
      end
  | Substring _ | Anagram _ _ => False
  end.
Fixpoint lay_seq (ts : list ast) (o x : nat) (l : list (bool * state)) : Prop :=
  match ts with
  | [] => l = []
  | t :: ts' => exists l1 l2, l = l1 ++ l2 /\ lay t o (match ts' with [] => x | _ => o + width t end) l1 /\ lay_seq ts' (o + width t) x l2
  end.
Fixpoint lay_alts (ts : list ast) (p x : nat) (l : list (bool * state)) : Prop :=
  match ts with
  | [] => l = []
  | t :: ts' => exists l1 l2, l = l1 ++ l2 /\ lay t p x l1 /\ lay_alts ts' (p + width t) x l2
  end.
Fixpoint lay_nat (ts : list ast) (p : nat) (l : list (bool * state)) : Prop :=
  match ts with
  | [] => l = []
  | t :: ts' => exists l1 l2, l = l1 ++ l2 /\ lay t p (p + width t) l1 /\ lay_nat ts' (p + width t) l2
  end.
Lemma lay_Sequence ts o x l : lay (Sequence ts) o x l <-> lay_seq ts o x l.
Proof.
  cbn [lay]. revert o l. induction ts as [|t ts IH]; intros o l; [reflexivity|]. cbn [lay_seq].
  split; intros (l1 & l2 & H1 & H2 & H3); exists l1, l2; (split; [exact H1|split; [exact H2|]]); apply IH; exact H3.
Qed.
Lemma lay_Alternatives ts o x l : lay (Alternatives ts) o x l <->
  exists e l', l = (true, mkState e EMPTY 0) :: l' /\ (forall j, mem e j = true <-> In j (starts ts (S o))) /\ lay_alts ts (S o) (o + width (Alternatives ts)) l'.
Proof.
  assert (HG : forall x ts p l, (fix go (ts : list ast) (p : nat) (l : list (bool * state)) : Prop :=
           match ts with
           | [] => l = []
           | t :: ts' => exists l1 l2, l = l1 ++ l2 /\ lay t p x l1 /\ go ts' (p + width t) l2
           end) ts p l <-> lay_alts ts p x l).
  { clear. intros x ts. induction ts as [|t ts IH]; intros p l; [reflexivity|]. cbn [lay_alts].
    split; intros (l1 & l2 & H1 & H2 & H3); exists l1, l2; (split; [exact H1|split; [exact H2|]]); apply IH; exact H3. }
  cbn [lay]. split; intros (e & l' & H1 & H2 & H3); exists e, l'; (split; [exact H1|split; [exact H2|]]); apply HG; exact H3.
Qed.

Lemma one_class_width t : one_class t = true -> width t = 1.
Proof.
  intros Ho. induction t as [cs|l IH|l IH|l IH|t mn mx IH|k b] using ast_ind'; cbn [one_class] in Ho; try discriminate; [reflexivity|].
  destruct l as [|t [|t2 l]]; try discriminate. cbn. rewrite (Forall_inv IH Ho). reflexivity.
Qed.
Lemma sum_cons t ts : width (Sequence (t :: ts)) = width t + width (Sequence ts).
Proof. reflexivity. Qed.
Lemma alts_width ts : width (Alternatives ts) = S (width (Sequence ts)).
Proof. reflexivity. Qed.

Lemma nat_seq ts : forall p l, lay_nat ts p l <-> lay_seq ts p (p + width (Sequence ts)) l.
Proof.
  induction ts as [|t ts IH]; intros p l; [reflexivity|]. cbn [lay_nat lay_seq]. rewrite sum_cons, Nat.add_assoc.
  assert (Hx : match ts with [] => p + width t + width (Sequence ts) | _ => p + width t end = p + width t) by (destruct ts; [cbn; lia|reflexivity]). rewrite Hx.
  split; intros (l1 & l2 & H1 & H2 & H3); exists l1, l2; (split; [exact H1|split; [exact H2|]]); apply IH; exact H3.
Qed.
Lemma repeat_width t k : width (Sequence (repeat t k)) = k * width t.
Proof. induction k as [|k IH]; [reflexivity|]. cbn [repeat]. rewrite sum_cons, IH. reflexivity. Qed.
Lemma forallb_repeat {X} (f : X -> bool) x k : f x = true -> forallb f (repeat x k) = true.
Proof. intros H. induction k as [|k IH]; [reflexivity|]. cbn. rewrite H. exact IH. Qed.
Lemma Forall_repeat' {X} (P : X -> Prop) x k : P x -> Forall P (repeat x k).
Proof. intros H. induction k; constructor; assumption. Qed.

(** A repetition is a repeated class or a repeated group. *)
Lemma rep_kind t mn mx : branching (Repetition t mn mx) = true ->
  (one_class t = true /\ match mx with Some m => mn <=? m | None => true end = true) \/
  (one_class t = false /\ branching t = true /\ exists m, mx = Some m /\ mn <= m /\
    (mn = m \/ (ends_unrepeated t = true /\ (2 <= shortest t \/ 2 <= beginnings t)))).
Proof.
  cbn [branching]. intros H. apply andb_true_iff in H. destruct H as [H1 H2]. destruct (one_class t); [auto|]. right. split; [reflexivity|].
  apply orb_true_iff in H2. destruct H2 as [H2|H2]; [discriminate|]. apply andb_true_iff in H2. destruct H2 as [H2 H3]. split; [exact H2|].
  destruct mx as [m|]; [|discriminate]. exists m. split; [reflexivity|]. apply Nat.leb_le in H1. split; [exact H1|].
  apply orb_true_iff in H3. destruct H3 as [H3|H3]; [left; apply Nat.eqb_eq; exact H3|right]. apply andb_true_iff in H3. destruct H3 as [H3 H4]. split; [exact H3|].
  apply orb_true_iff in H4. rewrite !Nat.leb_le in H4. exact H4.
Qed.
Lemma lay_group t mn m o x l : one_class t = false -> mn <= m ->
  (lay (Repetition t mn (Some m)) o x l <->
   (mn = 0 /\ m = 0 /\ l = []) \/ (mn = 1 /\ m = 1 /\ lay t o x l) \/
   (1 <= m /\ (mn = 1 -> m <> 1) /\ exists l', group_form (width t) mn m o l' l /\ lay_nat (repeat t m) (S o) l')).
Proof.
  intros Ho Hm. assert (HG : forall k p l, (fix go (k p : nat) (l : list (bool * state)) : Prop :=
                    match k with
                    | 0 => l = []
                    | S k' => exists l1 l2, l = l1 ++ l2 /\ lay t p (p + width t) l1 /\ go k' (p + width t) l2
                    end) k p l <-> lay_nat (repeat t k) p l).
  { clear. induction k as [|k IH]; intros p l; [reflexivity|]. cbn [repeat lay_nat].
    split; intros (l1 & l2 & H1 & H2 & H3); exists l1, l2; (split; [exact H1|split; [exact H2|]]); apply IH; exact H3. }
  assert (HM : forall k, k = m -> (exists l', group_form (width t) mn k o l' l /\
                 (fix go (k p : nat) (l : list (bool * state)) : Prop :=
                    match k with
                    | 0 => l = []
                    | S k' => exists l1 l2, l = l1 ++ l2 /\ lay t p (p + width t) l1 /\ go k' (p + width t) l2
                    end) k (S o) l') <-> exists l', group_form (width t) mn m o l' l /\ lay_nat (repeat t m) (S o) l').
  { intros k ->. split; intros (l' & H1 & H2); exists l'; (split; [exact H1|]); apply HG; exact H2. }
  assert (HK : 1 <= m -> Nat.max 1 (Nat.max mn m) = m) by lia.
  cbn [lay]. rewrite Ho. destruct mn as [|[|mn]]; [destruct m as [|m]|destruct m as [|[|m]]|].
  - split; [auto|]. intros [(_ & _ & H)|[(H & _)|(H & _)]]; [exact H|discriminate|lia].
  - cbv zeta. rewrite (HM _ (HK ltac:(lia))). split; [intros H; right; right; split; [lia|split; [lia|exact H]]|].
    intros [(_ & H & _)|[(H & _)|(_ & _ & H)]]; [discriminate|discriminate|exact H].
  - lia.
  - split; [auto|]. intros [(H & _)|[(_ & _ & H)|(_ & H & _)]]; [discriminate|exact H|lia].
  - cbv zeta. rewrite (HM _ (HK ltac:(lia))). split; [intros H; right; right; split; [lia|split; [lia|exact H]]|].
    intros [(H & _)|[(_ & H & _)|(_ & _ & H)]]; [discriminate|discriminate|exact H].
  - cbv zeta. rewrite (HM _ (HK ltac:(lia))). split; [intros H; right; right; split; [lia|split; [lia|exact H]]|].
    intros [(H & _)|[(H & _)|(_ & _ & H)]]; [discriminate|discriminate|exact H].
Qed.
Lemma group_width t mn m : mn <= m -> width (Repetition t mn (Some m)) = if m =? 0 then 0 else if (mn =? 1) && (m =? 1) then width t else 2 + m * width t.
Proof.
  intros H. cbn [width]. assert (HK : 1 <= m -> Nat.max 1 (Nat.max mn m) = m) by lia.
  destruct mn as [|[|mn]]; [destruct m as [|m]|destruct m as [|[|m]]|]; try reflexivity; try lia; try (rewrite HK by lia; reflexivity).
  destruct m as [|m]; [lia|]. rewrite HK by lia. reflexivity.
Qed.
Lemma group_cases t mn m o x l : one_class t = false -> mn <= m -> lay (Repetition t mn (Some m)) o x l ->
  (l = [] /\ mn = 0 /\ m = 0 /\ width (Repetition t mn (Some m)) = 0) \/
  (mn = 1 /\ m = 1 /\ lay t o x l /\ width (Repetition t mn (Some m)) = width t) \/
  (1 <= m /\ width (Repetition t mn (Some m)) = 2 + m * width t /\
   exists l', group_form (width t) mn m o l' l /\ lay_seq (repeat t m) (S o) (S o + m * width t) l').
Proof.
  intros Ho Hm Hl. apply lay_group in Hl; [|assumption|assumption]. rewrite (group_width _ _ _ Hm).
  destruct Hl as [(-> & -> & ->)|[(-> & -> & Hl)|(H1 & H2 & l' & H3 & H4)]]; [left; auto|right; left; auto|right; right].
  split; [exact H1|]. split; [|exists l'; split; [exact H3|]; apply nat_seq in H4; rewrite repeat_width in H4; exact H4].
  destruct (Nat.eqb_spec m 0); [lia|]. destruct (Nat.eqb_spec mn 1), (Nat.eqb_spec m 1); cbn [andb]; try reflexivity. lia.
Qed.

Lemma seq_length' ts : Forall (fun a => branching a = true -> forall o x l, lay a o x l -> length l = width a) ts -> forallb branching ts = true ->
  forall o x l, lay_seq ts o x l -> length l = width (Sequence ts).
Proof.
  intros IH Hb. induction ts as [|t ts IHts]; intros o x l Hl; [cbn in Hl; subst l; reflexivity|].
  cbn [lay_seq] in Hl. destruct Hl as (l1 & l2 & -> & H1 & H2). cbn [forallb] in Hb. apply andb_true_iff in Hb. destruct Hb as [B1 B2].
  rewrite app_length, sum_cons, (Forall_inv IH B1 _ _ _ H1), (IHts (Forall_inv_tail IH) B2 _ _ _ H2). reflexivity.
Qed.
Lemma lay_length a : branching a = true -> forall o x l, lay a o x l -> length l = width a.
Proof.
  induction a as [cs|ts IH|ts IH|ts IH|t mn mx IH|k b] using ast_ind'; intros Hb o x l Hl; try discriminate.
  - cbn in Hl. subst l. reflexivity.
  - cbn [branching] in Hb. apply lay_Alternatives in Hl. destruct Hl as (e & l' & -> & _ & Hl). rewrite alts_width. cbn [length]. f_equal.
    remember (o + width (Alternatives ts)) as jn eqn:E. clear E.
    assert (Hbr : forallb branching ts = true) by (apply andb_true_iff in Hb; destruct Hb as [Hb _]; apply andb_true_iff in Hb; apply Hb). clear Hb.
    remember (S o) as p eqn:E. clear E. revert p l' Hl. induction ts as [|t ts IHts]; intros p l' Hl; [cbn in Hl; subst l'; reflexivity|].
    cbn [lay_alts] in Hl. destruct Hl as (l1 & l2 & -> & H1 & H2). cbn [forallb] in Hbr. apply andb_true_iff in Hbr. destruct Hbr as [B1 B2].
    rewrite app_length, sum_cons, (Forall_inv IH B1 _ _ _ H1), (IHts (Forall_inv_tail IH) B2 _ _ H2). reflexivity.
  - cbn [branching] in Hb. apply lay_Sequence in Hl. exact (seq_length' ts IH Hb o x l Hl).
  - destruct (rep_kind _ _ _ Hb) as [[Ho _]|(Ho & Hbt & m & -> & Hm & _)].
    + pose proof (one_class_width _ Ho) as Hw. cbn [lay width] in *. rewrite Ho in Hl. rewrite Hw, ?Nat.mul_1_r. cbv zeta in Hl.
      assert (HR : forall k (P : list state -> Prop) l, (exists l', l = map (pair false) l' /\ rep_form (class_of t) o k l' /\ P l') -> length l = 2 + k).
      { intros k P l0 (l' & -> & Hr & _). rewrite map_length. eapply rep_form_length. exact Hr. }
      destruct mn as [|[|mn]]; [destruct mx as [[|m]|]|destruct mx as [[|[|m]]|]|]; try (eapply HR; exact Hl); subst l; reflexivity.
    + destruct (group_cases t mn m o x l Ho Hm Hl) as [(-> & _ & _ & Hw)|[(_ & _ & Hl' & Hw)|(_ & Hw & l' & (e & ef & -> & _) & Hs)]]; rewrite Hw.
      * reflexivity.
      * exact (IH Hbt _ _ _ Hl').
      * cbn [length]. rewrite app_length. cbn [length]. rewrite (seq_length' (repeat t m) (Forall_repeat' _ t m IH) (forallb_repeat _ t m Hbt) _ _ _ Hs), repeat_width. lia.
Qed.

(** ** A pattern that ends in a class *)
Lemma lay_end a : ends_in_class a = true -> branching a = true -> forall o x l, lay a o x l ->
  exists pre cs, l = pre ++ [(false, new_transition cs x)] /\ forall x', lay a o x' (pre ++ [(false, new_transition cs x')]).
Proof.
  induction a as [cs|ts IH|ts IH|ts IH|t mn mx IH|k b] using ast_ind'; intros He Hb o x l Hl; try discriminate.
  - cbn in Hl. subst l. exists [], cs. split; [reflexivity|]. intros x'. reflexivity.
  - apply lay_Sequence in Hl. change (forallb branching ts = true) in Hb.
    enough (HG : exists pre cs, l = pre ++ [(false, new_transition cs x)] /\ forall x', lay_seq ts o x' (pre ++ [(false, new_transition cs x')])).
    { destruct HG as (pre & cs & H1 & H2). exists pre, cs. split; [exact H1|]. intros x'. apply lay_Sequence, H2. }
    revert o l Hl. induction ts as [|t ts IHts]; intros o l Hl; [discriminate|].
    cbn [lay_seq forallb] in *. apply andb_true_iff in Hb. destruct Hb as [B1 B2]. destruct Hl as (l1 & l2 & -> & H1 & H2). destruct ts as [|t2 ts].
    + cbn in H2. subst l2. cbn [ends_in_class] in He. destruct (Forall_inv IH He B1 _ _ _ H1) as (pre & cs & -> & Hx). exists pre, cs. rewrite app_nil_r. split; [reflexivity|].
      intros x'. exists (pre ++ [(false, new_transition cs x')]), []. rewrite app_nil_r. split; [reflexivity|]. split; [apply Hx|reflexivity].
    + destruct (IHts (Forall_inv_tail IH) He B2 _ _ H2) as (pre & cs & -> & Hx). exists (l1 ++ pre), cs. split; [rewrite app_assoc; reflexivity|].
      intros x'. exists l1, (pre ++ [(false, new_transition cs x')]). rewrite app_assoc. split; [reflexivity|]. split; [exact H1|apply Hx].
Qed.

(** ** What the builder builds *)
Definition states_of (l : list (bool * state)) : list state := map snd l.

Fixpoint ends (ts : list ast) (p : nat) : list nat :=
  match ts with [] => [] | t :: ts' => (p + width t - 1) :: ends ts' (p + width t) end.

Lemma states_of_app l1 l2 : states_of (l1 ++ l2) = states_of l1 ++ states_of l2.
Proof. apply map_app. Qed.
Lemma states_of_length l : length (states_of l) = length l.
Proof. apply map_length. Qed.

Lemma repoint_ends x : x < 32 * max_blocks -> forall ts, forallb branching ts = true -> forallb ends_in_class ts = true -> forall p st0 l,
  length st0 = p -> p + width (Sequence ts) < 32 * max_blocks -> lay_nat ts p l ->
  exists l', foldM (repoint x) (ends ts p) (st0 ++ states_of l) = Ok (st0 ++ states_of l') /\ lay_alts ts p x l'.
Proof.
  intros Hx. induction ts as [|t ts IH]; intros Hb He p st0 l Hp Hw Hl.
  - cbn in Hl. subst l. exists []. split; reflexivity.
  - cbn [forallb lay_nat ends] in *. apply andb_true_iff in Hb, He. destruct Hb as [B1 B2], He as [E1 E2]. destruct Hl as (l1 & l2 & -> & H1 & H2).
    pose proof (lay_length t B1 _ _ _ H1) as Hlen. destruct (lay_end t E1 B1 _ _ _ H1) as (pre & cs & -> & Hall). rewrite app_length in Hlen. cbn [length] in Hlen.
    rewrite sum_cons in Hw.
    set (st1 := st0 ++ states_of (pre ++ [(false, new_transition cs x)])).
    assert (Hl1 : length st1 = p + width t) by (unfold st1; rewrite app_length, states_of_length, app_length; cbn [length]; lia).
    destruct (IH B2 E2 (p + width t) st1 l2 Hl1 ltac:(lia) H2) as (l2' & F & G).
    exists ((pre ++ [(false, new_transition cs x)]) ++ l2'). split.
    + cbn [foldM].
      assert (Hpt : repoint x (st0 ++ states_of ((pre ++ [(false, new_transition cs (p + width t))]) ++ l2)) (p + width t - 1) = Ok (st1 ++ states_of l2)).
      { unfold repoint, st1. rewrite !states_of_app. unfold states_of. cbn [map snd]. fold (states_of l2).
        assert (Hi : nth_error (st0 ++ (map snd pre ++ [new_transition cs (p + width t)]) ++ states_of l2) (p + width t - 1) = Some (new_transition cs (p + width t))).
        { rewrite nth_error_app2 by lia. rewrite nth_error_app1 by (rewrite app_length, map_length; cbn [length]; lia).
          rewrite nth_error_app2 by (rewrite map_length; lia). rewrite map_length. replace (p + width t - 1 - length st0 - length pre) with 0 by lia. reflexivity. }
        apply index_Ok in Hi. rewrite Hi. cbn [bind]. rewrite chk_ok by lia. cbn [bind new_transition eps]. rewrite mem_0. cbn [bind]. f_equal.
        assert (Hlist : forall (a b c d : list state) y z i, length a <= i -> length b + length a = i -> upd (a ++ (b ++ [y]) ++ c) i z = (a ++ b ++ [z]) ++ c).
        { clear. intros a b c d y z i H1 H2. rewrite upd_app_r by exact H1. rewrite upd_app_l by (rewrite app_length; cbn [length]; lia).
          rewrite upd_app_r by lia. replace (i - length a - length b) with 0 by lia. cbn [upd]. rewrite app_assoc. reflexivity. }
        unfold set_next. cbn [eps chars]. rewrite (Hlist _ _ _ []) by (rewrite ?map_length; lia). reflexivity. }
      rewrite Hpt. cbn [bind]. rewrite F. f_equal. unfold st1. rewrite <- app_assoc, <- states_of_app. reflexivity.
    + cbn [lay_alts]. exists (pre ++ [(false, new_transition cs x)]), l2'. split; [reflexivity|]. split; [apply Hall|exact G].
Qed.

Definition lays (ovf : bool) (a : ast) : Prop := forall st, length st + width a < 32 * max_blocks ->
  exists l, build_states ovf a st = Ok (st ++ states_of l) /\ lay a (length st) (length st + width a) l.

Lemma branches_build ovf ts : Forall (lays ovf) ts -> forallb branching ts = true -> forallb ends_in_class ts = true ->
  forall st e m es, length st + S (length m) + width (Sequence ts) < 32 * max_blocks ->
  exists e' l, foldM (branch_step (build_states ovf) (length st)) ts (st ++ mkState e EMPTY 0 :: states_of m, es)
      = Ok (st ++ mkState e' EMPTY 0 :: states_of (m ++ l), es ++ ends ts (length st + S (length m))) /\
    lay_nat ts (length st + S (length m)) l /\ forall j, mem e' j = true <-> mem e j = true \/ In j (starts ts (length st + S (length m))).
Proof.
  induction ts as [|t ts IH]; intros HL Hb He st e m es Hw.
  - exists e, []. cbn [foldM ends starts lay_nat]. rewrite !app_nil_r. split; [reflexivity|]. split; [reflexivity|]. intros j. split; [auto|]. intros [H|[]]; exact H.
  - cbn [forallb] in Hb, He. apply andb_true_iff in Hb, He. destruct Hb as [B1 B2], He as [E1 E2]. rewrite sum_cons in Hw.
    cbn [foldM]. unfold branch_step at 1.
    assert (Hlen : forall e, length (st ++ mkState e EMPTY 0 :: states_of m) = length st + S (length m)).
    { intros e0. rewrite app_length. cbn [length]. rewrite states_of_length. reflexivity. }
    rewrite Hlen. set (p := length st + S (length m)) in *.
    assert (Hn : nth_error (st ++ mkState e EMPTY 0 :: states_of m) (length st) = Some (mkState e EMPTY 0)).
    { rewrite nth_error_app2, Nat.sub_diag by lia. reflexivity. }
    rewrite (insert_eps_ok _ _ _ _ _ Hn) by lia. cbn [bind]. rewrite upd_app_r, Nat.sub_diag by lia. cbn [upd].
    unfold set_eps. cbn [eps chars next]. set (e1 := ins e p).
    destruct (Forall_inv HL (st ++ mkState e1 EMPTY 0 :: states_of m)) as (l1 & F1 & G1); [rewrite Hlen; lia|].
    rewrite F1. cbn [bind]. rewrite Hlen in G1. pose proof (lay_length t B1 _ _ _ G1) as Hl1.
    destruct (lay_end t E1 B1 _ _ _ G1) as (pre & cs & Epre & _).
    assert (Hpos : 0 < width t) by (rewrite <- Hl1, Epre, app_length; cbn [length]; lia).
    assert (Hl2 : length ((st ++ mkState e1 EMPTY 0 :: states_of m) ++ states_of l1) = p + width t) by (rewrite app_length, Hlen, states_of_length; lia).
    rewrite Hl2. unfold checked_sub. destruct (Nat.leb_spec 1 (p + width t)) as [C|C]; [|lia]. cbn [bind].
    assert (Heq : (st ++ mkState e1 EMPTY 0 :: states_of m) ++ states_of l1 = st ++ mkState e1 EMPTY 0 :: states_of (m ++ l1)).
    { rewrite <- app_assoc. cbn [app]. rewrite states_of_app. reflexivity. }
    rewrite Heq.
    assert (Hp' : length st + S (length (m ++ l1)) = p + width t) by (rewrite app_length; lia).
    destruct (IH (Forall_inv_tail HL) B2 E2 st e1 (m ++ l1) (es ++ [p + width t - 1]) ltac:(rewrite Hp'; lia)) as (e' & l2 & F2 & G2 & K2).
    rewrite F2, Hp'. rewrite Hp' in G2, K2. exists e', (l1 ++ l2). cbn [ends starts lay_nat]. split; [|split].
    + rewrite <- !app_assoc. reflexivity.
    + exists l1, l2. auto.
    + intros j. rewrite K2. unfold e1. rewrite mem_ins, orb_true_iff, Nat.eqb_eq. cbn [In].
      split; [intros [[H|H]|H]|intros [H|[H|H]]]; auto.
Qed.

(** The copies of a group. *)
Lemma nat_snoc ts : forall p l1 t l2, lay_nat ts p l1 -> lay t (p + width (Sequence ts)) (p + width (Sequence ts) + width t) l2 -> lay_nat (ts ++ [t]) p (l1 ++ l2).
Proof.
  induction ts as [|a ts IH]; intros p l1 t l2 H1 H2.
  - cbn in H1. subst l1. cbn [app lay_nat]. rewrite Nat.add_0_r in H2. exists l2, []. rewrite app_nil_r. auto.
  - cbn [lay_nat app] in *. destruct H1 as (a1 & a2 & -> & H3 & H4). exists a1, (a2 ++ l2). split; [rewrite app_assoc; reflexivity|]. split; [exact H3|].
    rewrite sum_cons, Nat.add_assoc in H2. apply IH; assumption.
Qed.
Lemma repeat_snoc {X} (x : X) k : repeat x (S k) = repeat x k ++ [x].
Proof. induction k as [|k IH]; [reflexivity|]. cbn [repeat] in *. rewrite IH at 1. reflexivity. Qed.
Lemma group_loop ovf t mn m st : lays ovf t -> branching t = true -> mn <= m -> forall k, length st + (2 + k * width t) < 32 * max_blocks ->
  exists e l q, foldM (repeat_step ovf (build_states ovf) (length st) t mn (Some m)) (seq 0 k) (st ++ [state_new], 0)
      = Ok (st ++ mkState e EMPTY 0 :: states_of l, q) /\ lay_nat (repeat t k) (S (length st)) l /\
    forall j, mem e j = true <-> exists i, i < k /\ i <= m - mn /\ j = S (length st) + i * width t.
Proof.
  intros HL Hb Hm. induction k as [|k IH]; intros Hk.
  - exists 0%N, [], 0. cbn [seq foldM repeat lay_nat states_of map]. split; [reflexivity|]. split; [reflexivity|]. intros j. rewrite mem_0. split; [discriminate|]. intros (i & H & _). lia.
  - destruct IH as (e & l & q & E & Hl & He); [lia|]. rewrite seq_S, Nat.add_0_l, foldM_cat, E. cbn [bind foldM].
    assert (Hce : copy_entry ovf k mn (Some m) = Ok (k <=? m - mn)).
    { unfold copy_entry. destruct (Nat.leb_spec mn m); [reflexivity|lia]. }
    unfold repeat_step. rewrite Hce. cbn [bind].
    assert (Hll : length l = k * width t).
    { apply nat_seq in Hl. rewrite <- repeat_width. eapply (lay_length (Sequence (repeat t k))); [cbn [branching]; apply forallb_repeat; exact Hb|]. apply lay_Sequence. exact Hl. }
    assert (Hlen : forall e, length (st ++ mkState e EMPTY 0 :: states_of l) = S (length st) + k * width t).
    { intros e0. rewrite app_length. cbn [length]. rewrite states_of_length. lia. }
    assert (Hn : nth_error (st ++ mkState e EMPTY 0 :: states_of l) (length st) = Some (mkState e EMPTY 0)).
    { rewrite nth_error_app2, Nat.sub_diag by lia. reflexivity. }
    set (e' := if k <=? m - mn then ins e (S (length st) + k * width t) else e).
    assert (Hst1 : (if k <=? m - mn then insert_eps max_blocks (st ++ mkState e EMPTY 0 :: states_of l) (length st) (length (st ++ mkState e EMPTY 0 :: states_of l))
         else Ok (st ++ mkState e EMPTY 0 :: states_of l)) = Ok (st ++ mkState e' EMPTY 0 :: states_of l)).
    { unfold e'. destruct (k <=? m - mn); [|reflexivity]. rewrite Hlen. rewrite (insert_eps_ok _ _ _ _ _ Hn) by lia. f_equal.
      rewrite upd_app_r, Nat.sub_diag by lia. cbn [upd]. unfold set_eps. cbn [eps chars next]. reflexivity. }
    rewrite Hst1. cbn [bind].
    destruct (HL (st ++ mkState e' EMPTY 0 :: states_of l)) as (l2 & F & G); [rewrite Hlen; lia|]. rewrite F. cbn [bind]. rewrite Hlen in G.
    exists e', (l ++ l2), (length (st ++ mkState e' EMPTY 0 :: states_of l)). split; [|split].
    + rewrite states_of_app, <- app_assoc. reflexivity.
    + rewrite repeat_snoc. apply nat_snoc; [exact Hl|]. rewrite repeat_width. exact G.
    + intros j. unfold e'. destruct (Nat.leb_spec k (m - mn)) as [C|C].
      * rewrite mem_ins, orb_true_iff, Nat.eqb_eq, He. split.
        -- intros [<-|(i & I1 & I2 & ->)]; [exists k; split; [lia|]; split; [exact C|reflexivity]|exists i; split; [lia|auto]].
        -- intros (i & I1 & I2 & ->). destruct (Nat.eq_dec i k) as [->|]; [auto|right; exists i; split; [lia|auto]].
      * rewrite He. split; intros (i & I1 & I2 & ->); exists i; (split; [lia|auto]).
Qed.
Lemma build_group ovf t mn m st : lays ovf t -> branching t = true -> mn <= m -> 1 <= m ->
  length st + (2 + m * width t) < 32 * max_blocks ->
  exists l l', (do (st1, final_term_index) <-
        foldM (repeat_step ovf (build_states ovf) (length st) t mn (Some m)) (seq 0 m)
          (st ++ [state_new], 0);
      let final_index := length st1 in
      do st2 <- insert_eps max_blocks (st1 ++ [state_new]) final_index (final_index + 1);
      do st3 <- (if mn =? 0 then insert_eps max_blocks st2 (length st) final_index else Ok st2);
      Ok st3) = Ok (st ++ states_of l) /\ group_form (width t) mn m (length st) l' l /\ lay_nat (repeat t m) (S (length st)) l'.
Proof.
  intros HL Hb Hm H1 Hcap. set (b := length st) in *.
  destruct (group_loop ovf t mn m st HL Hb Hm m Hcap) as (e & l' & q & E & Hl & He). fold b in E, He, Hl.
  assert (Hll : length l' = m * width t).
  { apply nat_seq in Hl. rewrite <- repeat_width. eapply (lay_length (Sequence (repeat t m))); [cbn [branching]; apply forallb_repeat; exact Hb|]. apply lay_Sequence. exact Hl. }
  rewrite E. cbn [bind]. cbv zeta. set (cp := states_of l') in *. set (f := S b + m * width t).
  assert (Hl1 : forall e, length (st ++ mkState e EMPTY 0 :: cp) = f).
  { intros e0. rewrite app_length. cbn [length]. unfold cp. rewrite states_of_length. unfold b, f. lia. }
  rewrite Hl1.
  assert (Hn2 : nth_error ((st ++ mkState e EMPTY 0 :: cp) ++ [state_new]) f = Some state_new).
  { rewrite nth_error_app2, Hl1, Nat.sub_diag by (rewrite Hl1; lia). reflexivity. }
  rewrite (insert_eps_ok _ _ _ _ _ Hn2) by (unfold f; lia). cbn [bind].
  set (ef1 := ins (eps state_new) (f + 1)).
  assert (Hs2 : upd ((st ++ mkState e EMPTY 0 :: cp) ++ [state_new]) f (set_eps state_new ef1)
    = st ++ mkState e EMPTY 0 :: cp ++ [mkState ef1 EMPTY 0]).
  { rewrite upd_app_r, Hl1, Nat.sub_diag by (rewrite Hl1; lia). cbn [upd]. rewrite <- app_assoc. reflexivity. }
  rewrite Hs2.
  set (e2 := if mn =? 0 then ins e f else e).
  assert (Hs3 : (if mn =? 0 then insert_eps max_blocks (st ++ mkState e EMPTY 0 :: cp ++ [mkState ef1 EMPTY 0]) b f
     else Ok (st ++ mkState e EMPTY 0 :: cp ++ [mkState ef1 EMPTY 0])) = Ok (st ++ mkState e2 EMPTY 0 :: cp ++ [mkState ef1 EMPTY 0])).
  { unfold e2. destruct (mn =? 0); [|reflexivity].
    assert (Hn3 : nth_error (st ++ mkState e EMPTY 0 :: cp ++ [mkState ef1 EMPTY 0]) b = Some (mkState e EMPTY 0)).
    { unfold b. rewrite nth_error_app2, Nat.sub_diag by lia. reflexivity. }
    rewrite (insert_eps_ok _ _ _ _ _ Hn3) by (unfold f; lia). f_equal. unfold b at 1. rewrite upd_app_r, Nat.sub_diag by lia. reflexivity. }
  rewrite Hs3. cbn [bind].
  exists ((negb (mn =? m), mkState e2 EMPTY 0) :: l' ++ [(false, mkState ef1 EMPTY 0)]), l'. split; [|split; [|exact Hl]].
  - unfold states_of. cbn [map snd]. rewrite map_app. reflexivity.
  - exists e2, ef1. split; [reflexivity|]. fold f. split.
    + intros j. unfold e2. destruct (Nat.eqb_spec mn 0) as [Hz|Hz].
      * rewrite mem_ins, orb_true_iff, Nat.eqb_eq, He. split; [intros [H|H]; auto|intros [H|[_ H]]; auto].
      * rewrite He. split; [auto|]. intros [H|[H _]]; [exact H|contradiction].
    + intros j. unfold ef1. rewrite mem_ins. cbn [state_new new_transition eps]. rewrite mem_0, orb_false_r, Nat.eqb_eq. split; intros H; symmetry; exact H.
Qed.

Lemma build_lay ovf a : branching a = true -> lays ovf a.
Proof.
  induction a as [cs|ts IH|ts IH|ts IH|t mn mx IH|k b] using ast_ind'; intros Hb st Hw; try discriminate.
  - exists [(false, new_transition cs (length st + 1))]. split; reflexivity.
  - cbn [branching] in Hb. apply andb_true_iff in Hb. destruct Hb as [Hb E1]. apply andb_true_iff in Hb. destruct Hb as [_ B1].
    assert (HL : Forall (lays ovf) ts).
    { rewrite Forall_forall in *. intros t Ht. apply IH; [exact Ht|]. rewrite forallb_forall in B1. auto. }
    rewrite alts_width in Hw. cbn [build_states].
    destruct (branches_build ovf ts HL B1 E1 st 0%N [] [] ltac:(cbn [length]; lia)) as (e & l & F & G & K). cbn [length] in F, G, K. change (states_of []) with (@nil state) in F. cbn [app] in F.
    replace (length st + 1) with (S (length st)) in * by lia.
    change (st ++ [state_new]) with (st ++ [mkState 0 EMPTY 0]). rewrite F. cbn [bind].
    assert (Hlt : length (st ++ mkState e EMPTY 0 :: states_of l) = length st + width (Alternatives ts)).
    { assert (Hll : forall ts p l, forallb branching ts = true -> lay_nat ts p l -> length l = width (Sequence ts)).
      { clear. induction ts as [|t ts IH]; intros p l Hb Hl; [cbn in Hl; subst l; reflexivity|]. cbn [forallb lay_nat] in *.
        apply andb_true_iff in Hb. destruct Hb as [B1 B2]. destruct Hl as (l1 & l2 & -> & H1 & H2). rewrite app_length, sum_cons, (lay_length t B1 _ _ _ H1), (IH _ _ B2 H2). reflexivity. }
      rewrite app_length. cbn [length]. rewrite states_of_length, alts_width, (Hll ts _ _ B1 G). lia. }
    rewrite Hlt.
    assert (Hst : st ++ mkState e EMPTY 0 :: states_of l = (st ++ [mkState e EMPTY 0]) ++ states_of l) by (rewrite <- app_assoc; reflexivity).
    rewrite Hst. rewrite <- alts_width in Hw.
    destruct (repoint_ends (length st + width (Alternatives ts)) ltac:(exact Hw) ts B1 E1 (S (length st)) (st ++ [mkState e EMPTY 0]) l) as (l' & F' & G').
    { rewrite app_length. cbn [length]. lia. }
    { rewrite alts_width in Hw. lia. }
    { exact G. }
    rewrite F'. exists ((true, mkState e EMPTY 0) :: l'). split; [rewrite <- app_assoc; reflexivity|].
    apply lay_Alternatives. exists e, l'. split; [reflexivity|]. split; [|exact G']. intros j. rewrite K, mem_0. split; [intros [H|H]; [discriminate|exact H]|auto].
  - cbn [branching build_states] in *. 
    enough (HG : forall st, length st + width (Sequence ts) < 32 * max_blocks -> exists l, foldM (fun st t => build_states ovf t st) ts st = Ok (st ++ states_of l) /\ lay_seq ts (length st) (length st + width (Sequence ts)) l).
    { destruct (HG st Hw) as (l & F & G). exists l. split; [exact F|]. apply lay_Sequence. exact G. }
    clear st Hw. induction ts as [|t ts IHts]; intros st Hw.
    + exists []. cbn [foldM states_of map lay_seq]. rewrite app_nil_r. split; reflexivity.
    + cbn [forallb] in Hb. apply andb_true_iff in Hb. destruct Hb as [B1 B2]. rewrite sum_cons in Hw.
      destruct (Forall_inv IH B1 st ltac:(lia)) as (l1 & F1 & G1). pose proof (lay_length t B1 _ _ _ G1) as Hl1.
      assert (Hlen : length (st ++ states_of l1) = length st + width t) by (rewrite app_length, states_of_length; lia).
      destruct (IHts (Forall_inv_tail IH) B2 (st ++ states_of l1) ltac:(lia)) as (l2 & F2 & G2). rewrite Hlen in G2.
      exists (l1 ++ l2). cbn [foldM]. rewrite F1. cbn [bind]. rewrite F2, states_of_app, app_assoc. split; [reflexivity|].
      cbn [lay_seq]. exists l1, l2. split; [reflexivity|]. rewrite sum_cons. split.
      * destruct ts; [|exact G1]. replace (length st + (width t + width (Sequence []))) with (length st + width t) by (cbn; lia). exact G1.
      * replace (length st + (width t + width (Sequence ts))) with (length st + width t + width (Sequence ts)) by lia. exact G2.
  - destruct (rep_kind _ _ _ Hb) as [[Ho Hmx]|(Ho & Hbt & m & -> & Hm & _)].
    2:{ specialize (IH Hbt). rewrite (group_width t mn m Hm) in *.
      assert (Hmain : 1 <= m -> (mn = 1 -> m <> 1) -> length st + (2 + m * width t) < 32 * max_blocks -> exists l, (do (st1, final_term_index) <-
            foldM (repeat_step ovf (build_states ovf) (length st) t mn (Some m)) (seq 0 m)
              (st ++ [state_new], 0);
          let final_index := length st1 in
          do st2 <- insert_eps max_blocks (st1 ++ [state_new]) final_index (final_index + 1);
          do st3 <- (if mn =? 0 then insert_eps max_blocks st2 (length st) final_index else Ok st2);
          Ok st3) = Ok (st ++ states_of l) /\ lay (Repetition t mn (Some m)) (length st) (length st + (2 + m * width t)) l).
      { intros M1 M2 M3. destruct (build_group ovf t mn m st IH Hbt Hm M1 M3) as (l & l' & F & G1 & G2). exists l. split; [exact F|].
        apply lay_group; [exact Ho|exact Hm|]. right; right. split; [exact M1|]. split; [exact M2|]. exists l'. auto. }
      assert (HK : 1 <= m -> Nat.max 1 (Nat.max mn m) = m) by lia.
      cbn [build_states]. destruct (Nat.eqb_spec m 0) as [->|Hm0].
      { assert (mn = 0) by lia. subst mn. exists []. cbn [states_of map]. rewrite app_nil_r. split; [reflexivity|]. apply lay_group; [exact Ho|lia|]. left. auto. }
      destruct (Nat.eqb_spec mn 1) as [->|Hn1].
      - destruct (Nat.eqb_spec m 1) as [->|Hm1]; cbn [andb] in *.
        + destruct (IH st Hw) as (l & F & G). exists l. split; [exact F|]. apply lay_group; [exact Ho|lia|]. right; left. auto.
        + destruct m as [|[|m]]; [lia|lia|]. rewrite (HK ltac:(lia)). apply Hmain; [lia|lia|exact Hw].
      - cbn [andb] in *. destruct (Hmain ltac:(lia) ltac:(lia) Hw) as (l & F & G). exists l. split; [|exact G]. rewrite <- F.
        destruct mn as [|[|mn]]; [destruct m as [|m]; [lia|]|lia|]; rewrite (HK ltac:(lia)); reflexivity. }
    pose proof (one_class_width _ Ho) as Hwt.
    assert (Hmain : forall k, k = Nat.max 1 (Nat.max mn (match mx with Some m => m | None => mn end)) ->
      (mn, mx) <> (0, Some 0) -> length st + (2 + k) < 32 * max_blocks ->
      exists l, (do (st1, final_term_index) <-
            foldM (repeat_step ovf (build_states ovf) (length st) t mn mx) (seq 0 k)
              (st ++ [state_new], 0);
          let final_index := length st1 in
          do st2 <- insert_eps max_blocks (st1 ++ [state_new]) final_index (final_index + 1);
          do st3 <- (if mn =? 0 then insert_eps max_blocks st2 (length st) final_index else Ok st2);
          match mx with
          | None => insert_eps max_blocks st3 final_index final_term_index
          | Some _ => Ok st3
          end) = Ok (st ++ states_of l) /\ exists l', l = map (pair false) l' /\ rep_form (class_of t) (length st) k l' /\
        (forall y, nth_error l' 0 = Some y -> (mem (eps y) (length st + k + 1) = true <-> mn = 0))).
    { intros k Ek Hne Hcap. destruct (build_rep ovf t mn mx st Ho Hmx Hne k Ek Hcap) as (l & F & Hl & Hl0).
      exists (map (pair false) l). split; [|exists l; auto]. rewrite F. unfold states_of. rewrite map_map. cbn [snd]. rewrite map_id. reflexivity. }
    assert (H11 : build_states ovf t st = Ok (st ++ [new_transition (class_of t) (length st + 1)])) by (apply one_class_build; exact Ho).
    cbn [build_states lay]. rewrite Ho. cbv zeta. cbn [width] in Hw |- *. rewrite Hwt, ?Nat.mul_1_r in *.
    destruct mn as [|[|mn]].
    + destruct mx as [[|m]|].
      * exists []. cbn [states_of map]. rewrite app_nil_r. split; reflexivity.
      * apply (Hmain _ eq_refl); [discriminate|exact Hw].
      * apply (Hmain _ eq_refl); [discriminate|exact Hw].
    + destruct mx as [[|[|m]]|].
      * apply (Hmain _ eq_refl); [discriminate|exact Hw].
      * exists [(false, new_transition (class_of t) (length st + 1))]. split; [exact H11|reflexivity].
      * apply (Hmain _ eq_refl); [discriminate|exact Hw].
      * apply (Hmain _ eq_refl); [discriminate|exact Hw].
    + apply (Hmain _ eq_refl); [discriminate|exact Hw].
Qed.
