(** The states of a group repeated without bound. *)
From Verif Require Export RingSafe AltSafe GlueCut.

Lemma ring_loop ovf t mn st : lays ovf t -> branching t = true -> forall k, length st + (2 + k * width t) < 32 * max_blocks ->
  exists e l, foldM (repeat_step ovf (build_states ovf) (length st) t mn None) (seq 0 k) (st ++ [state_new], 0)
      = Ok (st ++ mkState e EMPTY 0 :: states_of l, match k with 0 => 0 | S k' => S (length st) + k' * width t end) /\ lay_nat (repeat t k) (S (length st)) l /\
    forall j, mem e j = true <-> 1 <= k /\ j = S (length st).
Proof.
  intros HL Hb. induction k as [|k IH]; intros Hk.
  - exists 0%N, []. cbn [seq foldM repeat lay_nat states_of map]. split; [reflexivity|]. split; [reflexivity|]. intros j. rewrite mem_0. split; [discriminate|]. intros [H _]. lia.
  - destruct IH as (e & l & E & Hl & He); [lia|]. rewrite seq_S, Nat.add_0_l, foldM_cat, E. cbn [bind foldM].
    assert (Hce : copy_entry ovf k mn None = Ok (k <=? 0)).
    { unfold copy_entry. rewrite Nat.leb_refl, Nat.sub_diag. reflexivity. }
    unfold repeat_step. rewrite Hce. cbn [bind].
    assert (Hll : length l = k * width t).
    { apply nat_seq in Hl. rewrite <- repeat_width. eapply (lay_length (Sequence (repeat t k))); [cbn [branching]; apply forallb_repeat; exact Hb|]. apply lay_Sequence. exact Hl. }
    assert (Hlen : forall e, length (st ++ mkState e EMPTY 0 :: states_of l) = S (length st) + k * width t).
    { intros e0. rewrite app_length. cbn [length]. rewrite states_of_length. lia. }
    assert (Hn : nth_error (st ++ mkState e EMPTY 0 :: states_of l) (length st) = Some (mkState e EMPTY 0)).
    { rewrite nth_error_app2, Nat.sub_diag by lia. reflexivity. }
    set (e' := if k <=? 0 then ins e (S (length st) + k * width t) else e).
    assert (Hst1 : (if k <=? 0 then insert_eps max_blocks (st ++ mkState e EMPTY 0 :: states_of l) (length st) (length (st ++ mkState e EMPTY 0 :: states_of l))
         else Ok (st ++ mkState e EMPTY 0 :: states_of l)) = Ok (st ++ mkState e' EMPTY 0 :: states_of l)).
    { unfold e'. destruct (k <=? 0); [|reflexivity]. rewrite Hlen. rewrite (insert_eps_ok _ _ _ _ _ Hn) by lia. f_equal.
      rewrite upd_app_r, Nat.sub_diag by lia. cbn [upd]. unfold set_eps. cbn [eps chars next]. reflexivity. }
    rewrite Hst1. cbn [bind].
    destruct (HL (st ++ mkState e' EMPTY 0 :: states_of l)) as (l2 & F & G); [rewrite Hlen; lia|]. rewrite F. cbn [bind]. rewrite Hlen in *.
    exists e', (l ++ l2). split; [|split].
    + rewrite states_of_app, <- app_assoc. reflexivity.
    + rewrite repeat_snoc. apply nat_snoc; [exact Hl|]. rewrite repeat_width. exact G.
    + intros j. unfold e'. destruct (Nat.leb_spec k 0) as [C|C].
      * assert (k = 0) by lia. subst k. rewrite mem_ins, orb_true_iff, Nat.eqb_eq, He. cbn [Nat.mul]. rewrite Nat.add_0_r. split; [intros [<-|[H _]]; [auto|lia]|intros [_ ->]; auto].
      * rewrite He. split; intros [_ ->]; (split; [lia|reflexivity]).
Qed.

Lemma ring_states ovf t mn st : lays ovf t -> branching t = true -> let k := Nat.max 1 mn in let b := length st in let f := S b + k * width t in
  b + (2 + k * width t) < 32 * max_blocks ->
  exists e l ef, build_states ovf (Repetition t mn None) st = Ok (st ++ mkState e EMPTY 0 :: states_of l ++ [mkState ef EMPTY 0]) /\
    lay_nat (repeat t k) (S b) l /\ length l = k * width t /\
    (forall j, mem e j = true <-> j = S b \/ (mn = 0 /\ j = f)) /\ (forall j, mem ef j = true <-> j = S f \/ j = S b + (k - 1) * width t).
Proof.
  intros HL Hb k b f Hcap.
  destruct (ring_loop ovf t mn st HL Hb k Hcap) as (e & l & E & Hl & He). fold b in E, He, Hl.
  assert (K1 : 1 <= k) by (unfold k; lia).
  assert (Hq : match k with 0 => 0 | S k' => S b + k' * width t end = S b + (k - 1) * width t).
  { destruct k as [|k']; [lia|]. cbn [Nat.sub]. rewrite Nat.sub_0_r. reflexivity. }
  rewrite Hq in E.
  assert (Hll : length l = k * width t).
  { apply nat_seq in Hl. rewrite <- repeat_width. eapply (lay_length (Sequence (repeat t k))); [cbn [branching]; apply forallb_repeat; exact Hb|]. apply lay_Sequence. exact Hl. }
  assert (HB : build_states ovf (Repetition t mn None) st = (do (st1, final_term_index) <-
            foldM (repeat_step ovf (build_states ovf) (length st) t mn None) (seq 0 k) (st ++ [state_new], 0);
          let final_index := length st1 in
          do st2 <- insert_eps max_blocks (st1 ++ [state_new]) final_index (final_index + 1);
          do st3 <- (if mn =? 0 then insert_eps max_blocks st2 (length st) final_index else Ok st2);
          insert_eps max_blocks st3 final_index final_term_index)).
  { cbn [build_states]. rewrite Nat.max_id. fold k. destruct mn as [|[|mn]]; reflexivity. }
  rewrite HB. fold b. rewrite E. cbn [bind]. cbv zeta. set (cp := states_of l) in *.
  assert (Hl1 : forall e, length (st ++ mkState e EMPTY 0 :: cp) = f).
  { intros e0. rewrite app_length. cbn [length]. unfold cp. rewrite states_of_length. unfold b, f. lia. }
  rewrite Hl1.
  assert (Hn2 : nth_error ((st ++ mkState e EMPTY 0 :: cp) ++ [state_new]) f = Some state_new).
  { rewrite nth_error_app2, Hl1, Nat.sub_diag by (rewrite Hl1; lia). reflexivity. }
  rewrite (insert_eps_ok _ _ _ _ _ Hn2) by (unfold f; lia). cbn [bind].
  set (ef1 := ins (eps state_new) (f + 1)).
  assert (Hs2 : upd ((st ++ mkState e EMPTY 0 :: cp) ++ [state_new]) f (set_eps state_new ef1)
    = st ++ mkState e EMPTY 0 :: cp ++ [mkState ef1 EMPTY 0]).
  { rewrite upd_app_r, Hl1, Nat.sub_diag by (rewrite Hl1; lia). cbn [upd]. rewrite <- app_assoc. reflexivity. }
  rewrite Hs2.
  set (e2 := if mn =? 0 then ins e f else e).
  assert (Hs3 : (if mn =? 0 then insert_eps max_blocks (st ++ mkState e EMPTY 0 :: cp ++ [mkState ef1 EMPTY 0]) b f
     else Ok (st ++ mkState e EMPTY 0 :: cp ++ [mkState ef1 EMPTY 0])) = Ok (st ++ mkState e2 EMPTY 0 :: cp ++ [mkState ef1 EMPTY 0])).
  { unfold e2. destruct (mn =? 0); [|reflexivity].
    assert (Hn3 : nth_error (st ++ mkState e EMPTY 0 :: cp ++ [mkState ef1 EMPTY 0]) b = Some (mkState e EMPTY 0)).
    { unfold b. rewrite nth_error_app2, Nat.sub_diag by lia. reflexivity. }
    rewrite (insert_eps_ok _ _ _ _ _ Hn3) by (unfold f; lia). f_equal. unfold b at 1. rewrite upd_app_r, Nat.sub_diag by lia. reflexivity. }
  rewrite Hs3. cbn [bind].
  assert (Hn4 : nth_error (st ++ mkState e2 EMPTY 0 :: cp ++ [mkState ef1 EMPTY 0]) f = Some (mkState ef1 EMPTY 0)).
  { replace (st ++ mkState e2 EMPTY 0 :: cp ++ [mkState ef1 EMPTY 0]) with ((st ++ mkState e2 EMPTY 0 :: cp) ++ [mkState ef1 EMPTY 0]) by (rewrite <- app_assoc; reflexivity).
    rewrite nth_error_app2, Hl1, Nat.sub_diag by (rewrite Hl1; lia). reflexivity. }
  assert (Hkw : (k - 1) * width t + width t = k * width t) by (rewrite <- mul_pred by exact K1; reflexivity).
  rewrite (insert_eps_ok _ _ _ _ _ Hn4) by lia.
  exists e2, l, (ins ef1 (S b + (k - 1) * width t)). split; [|split; [exact Hl|split; [exact Hll|split]]].
  - f_equal. replace (st ++ mkState e2 EMPTY 0 :: cp ++ [mkState ef1 EMPTY 0]) with ((st ++ mkState e2 EMPTY 0 :: cp) ++ [mkState ef1 EMPTY 0]) by (rewrite <- app_assoc; reflexivity).
    rewrite upd_app_r, Hl1, Nat.sub_diag by (rewrite Hl1; lia). cbn [upd]. rewrite <- app_assoc. reflexivity.
  - intros j. unfold e2. destruct (Nat.eqb_spec mn 0) as [Hz|Hz].
    + rewrite mem_ins, orb_true_iff, Nat.eqb_eq, He. split; [intros [H|[_ H]]; auto|intros [H|[_ H]]; auto].
    + rewrite He. split; [intros [_ H]; auto|]. intros [H|[H _]]; [auto|contradiction].
  - intros j. unfold ef1. rewrite !mem_ins. cbn [state_new new_transition eps]. rewrite mem_0, orb_false_r, orb_true_iff, !Nat.eqb_eq. split; [intros [H|H]; [right|left]; lia|intros [H|H]; [right|left]; lia].
Qed.

Lemma sits_app A l o x (B : list state) a : lay a o x l -> length A = o -> sits (A ++ states_of l ++ B) a o x.
Proof.
  intros Hl HA. exists l. split; [exact Hl|]. intros k y Hk. unfold X. rewrite app_nth2, HA by lia. replace (o + k - o) with k by lia.
  rewrite app_nth1 by (rewrite states_of_length; eapply nth_lt; exact Hk). unfold states_of. apply nth_error_nth. rewrite nth_error_map, Hk. reflexivity.
Qed.
Lemma nat_at t k : branching t = true -> forall i p l, i < k -> lay_nat (repeat t k) p l ->
  exists l1 l2 l3, l = l1 ++ l2 ++ l3 /\ length l1 = i * width t /\ lay t (p + i * width t) (p + i * width t + width t) l2.
Proof.
  intros Hb. induction k as [|k IH]; intros i p l Hi Hl; [lia|]. cbn [repeat lay_nat] in Hl. destruct Hl as (l1 & l2 & -> & H1 & H2). destruct i as [|i].
  - exists [], l1, l2. cbn [Nat.mul app length]. rewrite Nat.add_0_r. auto.
  - destruct (IH i _ _ ltac:(lia) H2) as (m1 & m2 & m3 & -> & L1 & G). exists (l1 ++ m1), m2, m3. split; [rewrite <- app_assoc; reflexivity|].
    rewrite app_length, (lay_length t Hb _ _ _ H1), L1. cbn [Nat.mul]. split; [reflexivity|]. rewrite Nat.add_assoc. exact G.
Qed.
Lemma X_mid A x B i : length A = i -> X (A ++ x :: B) i = x.
Proof. intros <-. unfold X. rewrite app_nth2, Nat.sub_diag by lia. reflexivity. Qed.
Lemma ring_width t mn : width (Repetition t mn None) = 2 + Nat.max 1 mn * width t.
Proof. cbn [width]. rewrite Nat.max_id. destruct mn as [|[|mn]]; reflexivity. Qed.
Lemma solids_branching l : forallb solid l = true -> branching (Sequence l) = true.
Proof. intros H. cbn [branching]. apply forallb_forall. intros t Ht. apply solid_branching. rewrite forallb_forall in H. auto. Qed.
Lemma ring_wf b r mn e : forallb solid b = true -> solid r = true -> forallb solid e = true -> well_formed (Sequence (b ++ Repetition r mn None :: e)) = true.
Proof.
  intros Hb Hr He. change (Repetition r mn None :: e) with ([Repetition r mn None] ++ e). rewrite !wf_app. apply andb_true_iff. split; [apply branching_wf, solids_branching, Hb|].
  apply andb_true_iff. split; [|apply branching_wf, solids_branching, He]. cbn [well_formed forallb]. rewrite (branching_wf _ (solid_branching _ Hr)). reflexivity.
Qed.
Lemma ring_safe ovf b r mn e st : forallb solid b = true -> solid r = true -> 2 <= shortest r -> forallb solid e = true ->
  let a := Sequence (b ++ Repetition r mn None :: e) in width a < MAX_SET_SIZE -> build_all ovf a = Ok st -> optimize_safe st = true.
Proof.
  intros Sb Sr Sh Se a Hw Hb. destruct (build_nfa ovf a (ring_wf b r mn e Sb Sr Se) Hw) as (st' & Hb' & Hn & Hlen & _). assert (st' = st) by congruence. subst st'. clear Hb'.
  unfold optimize_safe. apply tame_safe; [exact Hn|]. destruct (closes_ok _ _ Hn) as (st1 & _ & C & _).
  assert (Hww : width a = width (Sequence b) + (2 + Nat.max 1 mn * width r) + width (Sequence e)).
  { unfold a. change (Repetition r mn None :: e) with ([Repetition r mn None] ++ e). rewrite !width_app. rewrite sum_cons, ring_width. change (width (Sequence [])) with 0. lia. }
  rewrite <- max_eq in Hw.
  set (o := width (Sequence b)) in *. set (k := Nat.max 1 mn) in *. set (w := width r) in *.
  pose proof (solid_branching _ Sr) as Br.
  unfold build_all in Hb. unfold a in Hb. change (Repetition r mn None :: e) with ([Repetition r mn None] ++ e) in Hb. rewrite !seq_app in Hb.
  destruct (build_lay ovf _ (solids_branching _ Sb) []) as (lb & Eb & Lb); [cbn [length plus]; fold o; lia|]. cbn [length plus app] in Eb, Lb. fold o in Lb. pose proof (lay_length _ (solids_branching _ Sb) _ _ _ Lb) as Nb. fold o in Nb.
  rewrite Eb in Hb. cbn [bind] in Hb. rewrite seq_app in Hb.
  destruct (ring_states ovf r mn (states_of lb) (build_lay ovf r Br) Br) as (eo & lr & ef & Er & Lr & Nr & Ho & Hf).
  { rewrite states_of_length, Nb. fold k w. lia. }
  rewrite states_of_length, Nb in Ho, Hf, Lr. fold k w in Lr, Nr, Ho, Hf.
  replace (build_states ovf (Sequence [Repetition r mn None]) (states_of lb)) with (build_states ovf (Repetition r mn None) (states_of lb)) in Hb.
  2:{ change (build_states ovf (Sequence [Repetition r mn None]) (states_of lb)) with (do x <- build_states ovf (Repetition r mn None) (states_of lb); Ok x). rewrite Er. reflexivity. }
  rewrite Er in Hb. cbn [bind] in Hb.
  set (mid := states_of lb ++ mkState eo EMPTY 0 :: states_of lr ++ [mkState ef EMPTY 0]) in *.
  assert (Nm : length mid = S (S o + k * w)).
  { unfold mid. rewrite app_length. cbn [length]. rewrite app_length, !states_of_length, Nb, Nr. cbn [length]. lia. }
  destruct (build_lay ovf _ (solids_branching _ Se) mid) as (le & Ee & Le); [lia|]. rewrite Nm in Le. pose proof (lay_length _ (solids_branching _ Se) _ _ _ Le) as Ne.
  rewrite Ee in Hb. cbn [bind] in Hb.
  assert (Ns : length (mid ++ states_of le) = S (S o + k * w) + width (Sequence e)) by (rewrite app_length, Nm, states_of_length; lia).
  set (fs := new_transition (charset_of WORD_END) (length (mid ++ states_of le))) in Hb. assert (Hst : st = (mid ++ states_of le) ++ [fs]) by congruence. clear Hb. subst st.
  refine (ring_tame _ b e r mn (charset_of WORD_END) Sb Sr Se Sh _ (ok_fine _ _ Hn) _ _ _ _ _ _ _ st1 C); fold o; fold k; fold w.
  - rewrite app_length, Ns. cbn [length]. lia.
  - rewrite <- app_assoc. unfold mid. rewrite <- app_assoc. apply (sits_app [] lb 0 o); [exact Lb|reflexivity].
  - assert (HX : X ((mid ++ states_of le) ++ [fs]) o = mkState eo EMPTY 0).
    { unfold mid. rewrite <- !app_assoc. apply X_mid. rewrite states_of_length. exact Nb. }
    unfold isemp, E. rewrite HX. split; [reflexivity|exact Ho].
  - intros i Hi. destruct (nat_at r k Br i _ _ Hi Lr) as (l1 & l2 & l3 & -> & N1 & G).
    replace ((mid ++ states_of le) ++ [fs])
      with ((states_of lb ++ mkState eo EMPTY 0 :: states_of l1) ++ states_of l2 ++ (states_of l3 ++ [mkState ef EMPTY 0] ++ states_of le ++ [fs])).
    + apply sits_app; [exact G|]. rewrite app_length. cbn [length]. rewrite !states_of_length, Nb, N1. fold w. lia.
    + unfold mid. rewrite !states_of_app. repeat (rewrite <- app_assoc; cbn [app]). reflexivity.
  - assert (HX : X ((mid ++ states_of le) ++ [fs]) (S o + k * w) = mkState ef EMPTY 0).
    { replace ((mid ++ states_of le) ++ [fs])
      with ((states_of lb ++ mkState eo EMPTY 0 :: states_of lr) ++ mkState ef EMPTY 0 :: (states_of le ++ [fs])).
      - apply X_mid. rewrite app_length. cbn [length]. rewrite !states_of_length, Nb, Nr. lia.
      - unfold mid. repeat (rewrite <- app_assoc; cbn [app]). reflexivity. }
    unfold isemp, E. rewrite HX. split; [reflexivity|exact Hf].
  - rewrite <- app_assoc. apply sits_app; [exact Le|exact Nm].
  - vm_compute. discriminate.
  - rewrite X_mid by exact Ns. unfold fs. rewrite Ns. reflexivity.
Qed.
