(** [filter_search_phases] (matcher.rs:692-751): all tranches are treated alike, and a depth is
    removed only if no phrase of that many words is accepted. *)
From Verif Require Export OptimizeProofs Query.

Lemma map_down_keeps i t : forall m x, nth_error m 0 = Some (Some x) -> nth_error (map_down m i t) 0 = Some (Some x).
Proof.
  induction t as [|t IH]; intros m x H; cbn [map_down].
  - rewrite H. exact H.
  - destruct (nth_error m (S t)) as [[y|]|] eqn:E; auto. apply IH. rewrite nth_error_upd. cbn [Nat.eqb]. exact H.
Qed.
Lemma map_down_0 i t : forall m, t < length m -> (forall j, j <= t -> nth_error m j = Some None) ->
  nth_error (map_down m i t) 0 = Some (Some i).
Proof.
  induction t as [|t IH]; intros m Hl H; cbn [map_down]; rewrite (H _ (le_n _)).
  - rewrite nth_error_upd. cbn [Nat.eqb]. apply Nat.ltb_lt in Hl. rewrite Hl. reflexivity.
  - apply IH; [rewrite upd_length; lia|]. intros j Hj. rewrite nth_error_upd. destruct (Nat.eqb_spec (S t) j); [lia|]. apply H. lia.
Qed.
Lemma max_list_ge l a : In a l -> a <= max_list l.
Proof. induction l as [|b l IH]; intros H; [destruct H|]. change (a <= Nat.max b (max_list l)). destruct H as [->|H]; [lia|]. specialize (IH H). lia. Qed.
Lemma tranche_map_0 tr : tr <> [] -> nth_error (tranche_map tr) 0 = Some (Some 0).
Proof.
  intros H. destruct tr as [|t tr]; [congruence|]. unfold tranche_map. cbn [length seq combine fold_left fst snd].
  assert (H0 : nth_error (map_down (repeat None (max_list (t :: tr) + 1)) 0 t) 0 = Some (Some 0)).
  { apply map_down_0.
    - rewrite repeat_length. cbn. lia.
    - intros j Hj. apply nth_error_repeat. cbn. lia. }
  revert H0. generalize (map_down (repeat None (max_list (t :: tr) + 1)) 0 t). generalize (combine (seq 1 (length tr)) tr).
  induction l as [|[i x] l IH]; intros m Hm; [exact Hm|]. cbn [fold_left]. apply IH. apply map_down_keeps. exact Hm.
Qed.

Lemma in_insert_nat x a l : In x (insert_nat a l) <-> x = a \/ In x l.
Proof.
  induction l as [|b l IH]; cbn; [intuition|]. destruct (a <=? b); cbn; [intuition|]. rewrite IH. intuition.
Qed.
Lemma in_sort_nat x l : In x (sort_nat l) <-> In x l.
Proof. induction l as [|a l IH]; [reflexivity|]. cbn [sort_nat fold_right]. rewrite in_insert_nat. fold (sort_nat l). rewrite IH. cbn. intuition. Qed.
Lemma dedup_cons a b l : dedup_nat (a :: b :: l) = if a =? b then dedup_nat (b :: l) else a :: dedup_nat (b :: l).
Proof. reflexivity. Qed.
Lemma in_dedup_nat x l : In x (dedup_nat l) <-> In x l.
Proof.
  induction l as [|a l IH]; [reflexivity|]. destruct l as [|b l]; [reflexivity|]. rewrite dedup_cons.
  destruct (Nat.eqb_spec a b) as [->|Hne].
  - rewrite IH. cbn. intuition.
  - cbn [In]. rewrite IH. cbn. intuition.
Qed.

(** One more word, of any class. *)
Definition class_step (pm : phrase_matcher) (r : row) : row :=
  fold_left (fun nx c => step (fuzz_limit pm) (c_table c) r nx) (classes pm) (zero_row (fuzz_limit pm)).

Lemma fold_upd_repeat {A} (g : A -> A) (x d : A) k : forall j l, length l = j + k ->
  (forall i, j <= i -> i < j + k -> nth_error l i = Some x) ->
  fold_left (fun nx t => upd nx t (g (nth t nx d))) (seq j k) l = firstn j l ++ repeat (g x) k.
Proof.
  induction k as [|k IH]; intros j l Hl H; cbn [seq fold_left repeat].
  - rewrite firstn_all2 by lia. symmetry. apply app_nil_r.
  - assert (Hj : nth_error l j = Some x) by (apply H; lia). rewrite (nth_error_nth _ _ d Hj).
    rewrite (IH (S j)); [|rewrite upd_length; lia|].
    + assert (E : firstn (S j) (upd l j (g x)) = firstn j l ++ [g x]).
      { clear -Hj. revert l Hj. induction j as [|j IH]; intros [|a l] Hj; try discriminate; cbn in *; [reflexivity|].
        rewrite <- (IH l Hj). reflexivity. }
      rewrite E, <- app_assoc. reflexivity.
    + intros i Hi1 Hi2. rewrite nth_error_upd. destruct (Nat.eqb_spec j i); [lia|]. apply H; lia.
Qed.
Lemma fold_upd_ext (F G : list row -> nat -> list row) l : (forall x t, In t l -> F x t = G x t) -> forall x, fold_left F l x = fold_left G l x.
Proof. induction l as [|a l IH]; intros H x; [reflexivity|]. cbn. rewrite (H x a (or_introl eq_refl)). apply IH. intros; apply H; right; auto. Qed.

Lemma filter_step_spec pm tmap tlen r : Forall (fun c => min_tranche c = 0) (classes pm) -> nth_error tmap 0 = Some (Some 0) ->
  filter_step pm tmap tlen (repeat r tlen) = Ok (repeat (class_step pm r) tlen).
Proof.
  intros Hcs Hm. unfold filter_step, class_step. generalize (zero_row (fuzz_limit pm)) as z. induction Hcs as [|c cs Hc _ IH]; intros z.
  - reflexivity.
  - cbn [foldM fold_left]. rewrite Hc. unfold index. rewrite Hm. cbn [bind]. rewrite Nat.sub_0_r.
    rewrite (fold_upd_ext _ (fun nx t => upd nx t (step (fuzz_limit pm) (c_table c) r (nth t nx [])))).
    + rewrite (fold_upd_repeat (fun x => step (fuzz_limit pm) (c_table c) r x) z [] tlen 0).
      * cbn [firstn app]. apply IH.
      * apply repeat_length.
      * intros i _ Hi. apply nth_error_repeat. exact Hi.
    + intros x t Ht. apply in_seq in Ht. f_equal. f_equal. apply nth_error_nth. apply nth_error_repeat. lia.
Qed.

Lemma filter_retain_spec pm w tr r q : Forall (fun ph => In (tranche ph) tr) q ->
  filter_retain pm w tr (repeat r (length tr)) q =
  if has_success_state pm r then q else filter (fun ph => negb (depth ph =? w)) q.
Proof.
  intros Hq. unfold filter_retain.
  assert (H : forall l, (forall i t, In (i, t) l -> i < length tr) -> forall q,
    fold_left (fun q p => if has_success_state pm (nth (fst p) (repeat r (length tr)) []) then q
      else filter (fun ph => negb (depth ph =? w) || negb (tranche ph =? snd p)) q) l q =
    if has_success_state pm r then q
    else filter (fun ph => negb (depth ph =? w) || forallb (fun p => negb (tranche ph =? snd p)) l) q).
  { induction l as [|[i t] l IH]; intros Hi q'; cbn [fold_left fst snd].
    - destruct (has_success_state pm r); [reflexivity|]. cbn [forallb]. symmetry. clear. induction q' as [|a q IH]; [reflexivity|].
      cbn. rewrite orb_true_r, IH. reflexivity.
    - assert (Hn : nth i (repeat r (length tr)) [] = r) by (apply nth_error_nth; apply nth_error_repeat; apply (Hi i t); left; reflexivity).
      rewrite Hn. rewrite IH by (intros; eapply Hi; right; eauto). destruct (has_success_state pm r); [reflexivity|].
      rewrite filter_andb. apply filter_ext. intros ph. cbn [forallb snd]. destruct (depth ph =? w), (tranche ph =? t); reflexivity. }
  rewrite H.
  - destruct (has_success_state pm r); [reflexivity|]. apply filter_ext_in. intros ph Hph. rewrite Forall_forall in Hq. specialize (Hq ph Hph).
    destruct (depth ph =? w); [|reflexivity]. cbn [negb orb].
    destruct (forallb _ _) eqn:E; [|reflexivity]. rewrite forallb_forall in E. exfalso.
    apply In_nth_error in Hq. destruct Hq as (i & Hi).
    assert (Hin : In (i, tranche ph) (combine (seq 0 (length tr)) tr)).
    { clear -Hi. assert (G : forall a i, nth_error tr i = Some (tranche ph) -> In (a + i, tranche ph) (combine (seq a (length tr)) tr)).
      { clear. induction tr as [|t tr IH]; intros a i H; [destruct i; discriminate|]. destruct i as [|i]; cbn in *.
        - injection H as ->. left. f_equal. lia.
        - right. replace (a + S i) with (S a + i) by lia. apply IH. exact H. }
      apply (G 0 i Hi). }
    specialize (E _ Hin). cbn in E. rewrite Nat.eqb_refl in E. discriminate.
  - intros i t Hin. apply in_combine_l in Hin. apply in_seq in Hin. lia.
Qed.

Fixpoint class_steps (pm : phrase_matcher) (k : nat) (r : row) : row :=
  match k with 0 => r | S k' => class_steps pm k' (class_step pm r) end.
Lemma class_steps_S pm k : forall r, class_steps pm (S k) r = class_step pm (class_steps pm k r).
Proof. induction k as [|k IH]; intros r; [reflexivity|]. cbn [class_steps] in *. rewrite IH. reflexivity. Qed.
Definition depth_possible (pm : phrase_matcher) (d : nat) : bool :=
  (d =? 0) || has_success_state pm (class_steps pm d (start_row (fuzz_limit pm) (start_states pm))).

Lemma filter_search_phases_spec pm q : Forall (fun c => min_tranche c = 0) (classes pm) ->
  filter_search_phases pm q = Ok (filter (fun ph => depth_possible pm (depth ph)) q).
Proof.
  intros Hcs. unfold filter_search_phases. destruct q as [|p0 q0] eqn:Eq; [reflexivity|]. rewrite <- Eq.
  assert (Hq : q <> []) by (rewrite Eq; discriminate). clear p0 q0 Eq.
  set (tr := dedup_nat (sort_nat (map tranche q))). set (md := max_list (map depth q)).
  assert (Htr : Forall (fun ph => In (tranche ph) tr) q).
  { apply Forall_forall. intros ph Hph. unfold tr. rewrite in_dedup_nat, in_sort_nat. apply in_map. exact Hph. }
  assert (Htr0 : tr <> []). { destruct q as [|p q]; [congruence|]. inversion Htr; subst. intros E. rewrite E in *. contradiction. }
  pose proof (tranche_map_0 tr Htr0) as Hm. set (st := start_row (fuzz_limit pm) (start_states pm)).
  assert (H : forall k, let f := (fun cq w => let '(cur, q) := cq in
          do nx <- filter_step pm (tranche_map tr) (length tr) cur;
          Ok (nx, filter_retain pm w tr nx q)) in
     foldM f (seq 1 k) (repeat st (length tr), q) =
       Ok (repeat (class_steps pm k st) (length tr),
           filter (fun ph => (k <? depth ph) || depth_possible pm (depth ph)) q)).
  { induction k as [|k IH]; cbv zeta.
    - cbn [seq foldM class_steps]. do 2 f_equal. symmetry. clear. induction q as [|ph q IH]; [reflexivity|]. cbn [filter].
      rewrite IH. unfold depth_possible. destruct (depth ph); reflexivity.
    - rewrite seq_S.
      assert (Happ : forall A S (f : S -> A -> outcome S) l1 l2 s, foldM f (l1 ++ l2) s = bind (foldM f l1 s) (foldM f l2)).
      { clear. intros A S f l1. induction l1 as [|a l1 IH]; intros l2 s; [reflexivity|]. cbn [app foldM]. destruct (f s a); cbn [bind]; auto. }
      rewrite Happ, IH. cbn [bind foldM]. rewrite (filter_step_spec pm _ _ _ Hcs Hm). cbn [bind].
      rewrite filter_retain_spec.
      2:{ rewrite Forall_forall in *. intros ph Hph. apply filter_In in Hph. apply Htr. apply Hph. }
      rewrite <- class_steps_S. do 2 f_equal. destruct (has_success_state pm (class_steps pm (S k) st)) eqn:Es.
      + apply filter_ext. intros ph. destruct (Nat.ltb_spec k (depth ph)), (Nat.ltb_spec (S k) (depth ph)); cbn [orb]; try lia; try reflexivity.
        symmetry. unfold depth_possible. replace (depth ph) with (S k) by lia. fold st. rewrite Es. reflexivity.
      + rewrite filter_andb. apply filter_ext. intros ph. change (1 + k) with (S k).
        destruct (Nat.eqb_spec (depth ph) (S k)) as [He|Hne].
        * rewrite andb_false_r. symmetry. rewrite (proj2 (Nat.ltb_ge _ _)) by lia. cbn [orb]. unfold depth_possible. rewrite He. fold st. rewrite Es. reflexivity.
        * rewrite andb_true_r. destruct (Nat.ltb_spec k (depth ph)), (Nat.ltb_spec (S k) (depth ph)); cbn [orb]; try lia; reflexivity. }
  specialize (H md). cbv zeta in H. rewrite H. cbn [bind]. f_equal. apply filter_ext_in. intros ph Hph.
  rewrite (proj2 (Nat.ltb_ge _ _)); [reflexivity|]. apply max_list_ge. apply in_map. exact Hph.
Qed.

(** Phrases of an impossible depth are not accepted. *)
Lemma class_step_mem pm r g t : length r = fuzz_limit pm -> g < fuzz_limit pm ->
  length (class_step pm r) = fuzz_limit pm /\
  mem (nth g (class_step pm r) 0%N) t = existsb (fun c => step_bool (fuzz_limit pm) (c_table c) r g t) (classes pm).
Proof.
  intros Hl Hg. unfold class_step.
  destruct (fold_or (fun nx c => step (fuzz_limit pm) (c_table c) r nx) (fun c => step_bool (fuzz_limit pm) (c_table c) r g t)
    (fuzz_limit pm) g t (classes pm)) with (r := zero_row (fuzz_limit pm)) as [H1 H2].
  - intros x c _ Hx. apply step_mem; auto.
  - apply zero_row_length.
  - split; [exact H1|]. rewrite H2, nth_zero_row, mem_0. reflexivity.
Qed.
Lemma class_steps_walk pm Ts : 0 < fuzz_limit pm -> Forall (fun T => In T (map c_table (classes pm))) Ts ->
  forall r f s h t, length r = fuzz_limit pm -> f + h < fuzz_limit pm -> mem (nth f r 0%N) s = true -> walk Ts s h t ->
  mem (nth (f + h) (class_steps pm (length Ts) r) 0%N) t = true.
Proof.
  intros Hpos HTs. induction HTs as [|T Ts HT _ IH]; intros r f s h t Hr Hfh Hm Hw; inversion Hw; subst; cbn [length class_steps].
  - rewrite Nat.add_0_r. exact Hm.
  - rewrite Nat.add_assoc. eapply IH; eauto.
    + apply (class_step_mem pm r 0 0); auto.
    + lia.
    + rewrite (proj2 (class_step_mem pm r (f + df) m Hr ltac:(lia))). apply existsb_exists. apply in_map_iff in HT.
      destruct HT as (c & <- & Hc). exists c. split; [exact Hc|]. apply step_bool_spec; [lia|]. exists f, df, s. auto.
Qed.
Lemma depth_impossible pm Ts : 0 < fuzz_limit pm -> Forall (fun T => In T (map c_table (classes pm))) Ts ->
  depth_possible pm (length Ts) = false -> ~ accepted pm Ts.
Proof.
  intros Hpos HTs Hd (s & h & Hs & Hh & Hw). unfold depth_possible in Hd. apply orb_false_iff in Hd. destruct Hd as [_ Hd].
  assert (H : has_success_state pm (class_steps pm (length Ts) (start_row (fuzz_limit pm) (start_states pm))) = true); [|congruence].
  unfold has_success_state. apply has_state_cum. exists h. split; [exact Hh|].
  apply (class_steps_walk pm Ts Hpos HTs _ 0 s h); auto; [apply start_row_length|].
  rewrite nth_start_row by exact Hpos. exact Hs.
Qed.
