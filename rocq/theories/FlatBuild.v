(** The automaton of a pattern without nesting is an interval automaton, so that its optimisation is
    harmless. *)
From Verif Require Export FlatProofs CompileProofs Flat.

Fixpoint class_of (a : ast) : charset :=
  match a with CharClass cs => cs | Sequence [t] => class_of t | _ => EMPTY end.
Lemma one_class_build ovf t : one_class t = true -> forall st,
  build_states ovf t st = Ok (st ++ [new_transition (class_of t) (length st + 1)]).
Proof.
  induction t as [cs|l IH|l IH|l IH|t mn mx IH|k b] using ast_ind'; cbn [one_class]; intros Ho st; try discriminate.
  - reflexivity.
  - destruct l as [|t [|t2 l]]; try discriminate. cbn [build_states foldM class_of].
    pose proof (Forall_inv IH) as IHt. rewrite (IHt Ho). reflexivity.
Qed.
Lemma one_class_wf t : one_class t = true -> well_formed t = true.
Proof.
  induction t as [cs|l IH|l IH|l IH|t mn mx IH|k b] using ast_ind'; cbn [one_class]; intros Ho; try discriminate; [reflexivity|].
  destruct l as [|t [|t2 l]]; try discriminate. cbn [well_formed forallb]. rewrite (Forall_inv IH Ho). reflexivity.
Qed.
Lemma flat_wf a : flat a = true -> well_formed a = true.
Proof.
  induction a as [cs|l IH|l IH|l IH|t mn mx IH|k b] using ast_ind'; cbn [flat well_formed]; intros Hf; try discriminate; [reflexivity| |].
  - apply forallb_forall. intros t Ht. rewrite Forall_forall in IH. rewrite forallb_forall in Hf. auto.
  - apply andb_true_iff in Hf. destruct Hf as [H1 H2]. rewrite (one_class_wf _ H1), H2. reflexivity.
Qed.

(** What the states of such an automaton look like before the closure. *)
Definition shape (st : list state) (i : nat) (x : state) : Prop :=
  (eps x = 0%N /\ next x = S i) \/
  (chars x = EMPTY /\ exists u, i < u <= length st /\ forall j, mem (eps x) j = true <-> i < j <= u) \/
  (chars x = EMPTY /\ 1 <= i /\ (exists y, nth_error st (i - 1) = Some y /\ eps y = 0%N /\ next y = i) /\
   forall j, mem (eps x) j = true <-> j = S i \/ S j = i).
Definition good (st : list state) : Prop := forall i x, nth_error st i = Some x -> shape st i x.

Lemma shape_app st l i x : i < length st -> shape st i x -> shape (st ++ l) i x.
Proof.
  intros Hi [H|[(H1 & u & H2 & H3)|(H1 & H2 & (y & H3 & H4) & H5)]].
  - left. exact H.
  - right; left. split; [exact H1|]. exists u. rewrite app_length. split; [lia|exact H3].
  - right; right. split; [exact H1|]. split; [exact H2|]. split; [|exact H5]. exists y. split; [|exact H4].
    rewrite nth_error_app1; [exact H3|lia].
Qed.
Lemma good_app st l : good st -> (forall k x, nth_error l k = Some x -> shape (st ++ l) (length st + k) x) -> good (st ++ l).
Proof.
  intros H Hl i x Hx. destruct (Nat.lt_ge_cases i (length st)) as [C|C].
  - rewrite nth_error_app1 in Hx by exact C. apply shape_app; [exact C|]. apply H. exact Hx.
  - rewrite nth_error_app2 in Hx by exact C. specialize (Hl _ _ Hx). replace (length st + (i - length st)) with i in Hl by lia. exact Hl.
Qed.

Lemma seq_at' b k t : t < k -> nth_error (seq b k) t = Some (b + t).
Proof.
  revert b t. induction k as [|k IH]; intros b t Ht; [lia|]. destruct t as [|t]; cbn; [f_equal; lia|]. rewrite IH by lia. f_equal. lia.
Qed.
(** [k] copies of a class from position [b] on *)
Definition copies (cs : charset) (b k : nat) : list state := map (fun t => new_transition cs (S t)) (seq b k).
Lemma copies_S cs b k : copies cs b (S k) = copies cs b k ++ [new_transition cs (S (b + k))].
Proof. unfold copies. rewrite seq_S, map_app. reflexivity. Qed.
Lemma copies_length cs b k : length (copies cs b k) = k.
Proof. unfold copies. rewrite map_length, seq_length. reflexivity. Qed.
Lemma copies_nth cs b k t x : nth_error (copies cs b k) t = Some x -> t < k /\ x = new_transition cs (S (b + t)).
Proof.
  intros H. assert (Ht : t < k) by (rewrite <- (copies_length cs b k); eapply nth_lt; exact H). split; [exact Ht|].
  unfold copies in H. rewrite nth_error_map, (seq_at' b k t Ht) in H. cbn in H. congruence.
Qed.

Lemma upd_app_r {A} (l1 l2 : list A) i x : length l1 <= i -> upd (l1 ++ l2) i x = l1 ++ upd l2 (i - length l1) x.
Proof. revert i. induction l1 as [|a l1 IH]; intros i Hi; cbn [app length] in *; [rewrite Nat.sub_0_r; reflexivity|]. destruct i as [|i]; [lia|]. cbn [upd]. rewrite IH by lia. reflexivity. Qed.

Lemma insert_eps_ok nblk st i j x : nth_error st i = Some x -> j < 32 * nblk ->
  insert_eps nblk st i j = Ok (upd st i (set_eps x (ins (eps x) j))).
Proof.
  intros Hx Hj. unfold insert_eps. assert (Hi : index st i = Ok x) by (apply index_Ok; exact Hx). rewrite Hi. cbn [bind].
  rewrite (chk_ok _ _ Hj). reflexivity.
Qed.

Lemma foldM_cat {A S} (f : S -> A -> outcome S) l1 : forall l2 s, foldM f (l1 ++ l2) s = bind (foldM f l1 s) (foldM f l2).
Proof. induction l1 as [|a l1 IH]; intros l2 s; cbn [app foldM bind]; [reflexivity|]. destruct (f s a); cbn [bind]; auto. Qed.

Lemma copies_loop ovf t mn mx st : one_class t = true ->
  (match mx with Some m => mn <=? m | None => true end) = true ->
  let d := match mx with Some m => m - mn | None => 0 end in
  let b := length st in
  forall k, b + k < 32 * max_blocks -> 1 <= k ->
  exists e, foldM (repeat_step ovf (build_states ovf) b t mn mx) (seq 0 k) (st ++ [state_new], 0)
      = Ok (st ++ mkState e EMPTY 0 :: copies (class_of t) (S b) k, b + k) /\
    forall j, mem e j = true <-> b < j /\ j <= b + k /\ j <= S (b + d).
Proof.
  intros Ho Hmx d b k Hk Hk1.
  assert (HG : forall k, b + k < 32 * max_blocks ->
    exists e q, foldM (repeat_step ovf (build_states ovf) b t mn mx) (seq 0 k) (st ++ [state_new], 0)
        = Ok (st ++ mkState e EMPTY 0 :: copies (class_of t) (S b) k, q) /\ (1 <= k -> q = b + k) /\
      forall j, mem e j = true <-> b < j /\ j <= b + k /\ j <= S (b + d)).
  { clear k Hk Hk1. induction k as [|k IH]; intros Hk.
    - exists 0%N, 0. cbn [seq foldM copies map]. split; [reflexivity|]. split; [lia|]. intros j. rewrite mem_0. split; [discriminate|lia].
    - destruct (IH ltac:(lia)) as (e & q & E & _ & He). rewrite seq_S, Nat.add_0_l, foldM_cat, E. cbn [bind foldM].
      assert (Hce : copy_entry ovf k mn mx = Ok (k <=? d)).
      { unfold copy_entry, d. destruct mx as [m|]; [rewrite Hmx; reflexivity|]. rewrite Nat.leb_refl, Nat.sub_diag. reflexivity. }
      unfold repeat_step. rewrite Hce. cbn [bind].
      assert (Hlen : length (st ++ mkState e EMPTY 0 :: copies (class_of t) (S b) k) = S (b + k)).
      { rewrite app_length. cbn [length]. rewrite copies_length. unfold b. lia. }
      assert (Hn : nth_error (st ++ mkState e EMPTY 0 :: copies (class_of t) (S b) k) b = Some (mkState e EMPTY 0)).
      { unfold b. rewrite nth_error_app2, Nat.sub_diag by lia. reflexivity. }
      set (e' := if k <=? d then ins e (S (b + k)) else e).
      assert (Hst1 : (if k <=? d then insert_eps max_blocks (st ++ mkState e EMPTY 0 :: copies (class_of t) (S b) k) b (length (st ++ mkState e EMPTY 0 :: copies (class_of t) (S b) k))
           else Ok (st ++ mkState e EMPTY 0 :: copies (class_of t) (S b) k)) = Ok (st ++ mkState e' EMPTY 0 :: copies (class_of t) (S b) k)).
      { unfold e'. destruct (k <=? d); [|reflexivity]. rewrite (insert_eps_ok _ _ _ _ _ Hn) by lia. f_equal.
        unfold b at 1. rewrite upd_app_r, Nat.sub_diag by lia. cbn [upd]. unfold set_eps. cbn [eps chars next]. rewrite Hlen. reflexivity. }
      rewrite Hst1. cbn [bind]. rewrite (one_class_build ovf t Ho). cbn [bind].
      assert (Hlen' : length (st ++ mkState e' EMPTY 0 :: copies (class_of t) (S b) k) = S (b + k)).
      { rewrite app_length. cbn [length]. rewrite copies_length. unfold b. lia. }
      rewrite Hlen'. exists e', (S (b + k)). split; [|split; [lia|]].
      + rewrite copies_S, <- app_assoc. cbn [app]. rewrite Nat.add_1_r. cbn [plus]. reflexivity.
      + intros j. unfold e'. destruct (Nat.leb_spec k d) as [C|C].
        * rewrite mem_ins, orb_true_iff, Nat.eqb_eq, He. lia.
        * rewrite He. lia. }
  destruct (HG k Hk) as (e & q & E & Hq & He). rewrite (Hq Hk1) in E. eauto.
Qed.

Lemma good_reps st cs e k ef : 1 <= k ->
  (exists u, 1 <= u <= S k /\ forall j, mem e j = true <-> length st < j <= length st + u) ->
  (forall j, mem ef j = true <-> j = length st + k + 2) \/ (forall j, mem ef j = true <-> j = length st + k + 2 \/ j = length st + k) ->
  good st -> good (st ++ mkState e EMPTY 0 :: copies cs (S (length st)) k ++ [mkState ef EMPTY 0]).
Proof.
  intros Hk (u & Hu & He) Hef Hg. set (b := length st) in *.
  assert (Hlen : length (st ++ mkState e EMPTY 0 :: copies cs (S b) k ++ [mkState ef EMPTY 0]) = b + k + 2).
  { rewrite app_length. cbn [length]. rewrite app_length, copies_length. cbn. unfold b. lia. }
  apply good_app; [exact Hg|]. intros i x Hx. fold b. destruct i as [|i]; cbn [nth_error] in Hx.
  - injection Hx as <-. right; left. split; [reflexivity|]. exists (b + u). rewrite Hlen, Nat.add_0_r. cbn [eps]. split; [lia|exact He].
  - destruct (Nat.lt_ge_cases i k) as [C|C].
    + rewrite nth_error_app1 in Hx by (rewrite copies_length; exact C). apply copies_nth in Hx. destruct Hx as [_ ->].
      left. cbn. split; [reflexivity|lia].
    + rewrite nth_error_app2 in Hx by (rewrite copies_length; exact C). rewrite copies_length in Hx.
      assert (Hik : i = k) by (destruct (i - k) as [|[|]] eqn:F; [lia|discriminate|discriminate]). subst i.
      rewrite Nat.sub_diag in Hx. cbn in Hx. injection Hx as <-. destruct Hef as [Hef|Hef].
      * right; left. split; [reflexivity|]. exists (b + k + 2). rewrite Hlen. split; [lia|]. intros j. cbn [eps]. rewrite Hef. lia.
      * right; right. split; [reflexivity|]. split; [lia|]. split; [|intros j; cbn [eps]; rewrite Hef; lia].
        replace (b + S k - 1) with (b + k) by lia. exists (new_transition cs (S (b + k))).
        split; [|cbn; split; [reflexivity|lia]].
        destruct k as [|k]; [lia|]. rewrite nth_error_app2 by (unfold b; lia). fold b. replace (b + S k - b) with (S k) by lia. cbn [nth_error].
        rewrite nth_error_app1 by (rewrite copies_length; lia). unfold copies. rewrite nth_error_map, seq_at' by lia. cbn. f_equal. f_equal. lia.
Qed.

(** The states of a repeated class. *)
Definition rep_form (cs : charset) (b k : nat) (l : list state) : Prop :=
  1 <= k /\ exists e ef, l = mkState e EMPTY 0 :: copies cs (S b) k ++ [mkState ef EMPTY 0] /\
  (exists u, 1 <= u <= S k /\ forall j, mem e j = true <-> b < j <= b + u) /\
  ((forall j, mem ef j = true <-> j = b + k + 2) \/ (forall j, mem ef j = true <-> j = b + k + 2 \/ j = b + k)).
Lemma rep_form_length cs b k l : rep_form cs b k l -> length l = 2 + k.
Proof. intros (_ & e & ef & -> & _). cbn [length]. rewrite app_length, copies_length. cbn. lia. Qed.

Lemma build_rep ovf t mn mx st : one_class t = true -> (match mx with Some m => mn <=? m | None => true end) = true ->
  (mn, mx) <> (0, Some 0) -> forall k, k = Nat.max 1 (Nat.max mn (match mx with Some m => m | None => mn end)) ->
  length st + (2 + k) < 32 * max_blocks ->
  exists l, (do (st1, final_term_index) <-
        foldM (repeat_step ovf (build_states ovf) (length st) t mn mx) (seq 0 k)
          (st ++ [state_new], 0);
      let final_index := length st1 in
      do st2 <- insert_eps max_blocks (st1 ++ [state_new]) final_index (final_index + 1);
      do st3 <- (if mn =? 0 then insert_eps max_blocks st2 (length st) final_index else Ok st2);
      match mx with
      | None => insert_eps max_blocks st3 final_index final_term_index
      | Some _ => Ok st3
      end) = Ok (st ++ l) /\ rep_form (class_of t) (length st) k l /\
    (forall y, nth_error l 0 = Some y -> (mem (eps y) (length st + k + 1) = true <-> mn = 0)).
Proof.
  intros Ho Hmx Hne k Ek Hcap. assert (Hk1 : 1 <= k) by lia. set (b := length st) in *.
  destruct (copies_loop ovf t mn mx st Ho Hmx k ltac:(fold b; lia) Hk1) as (e & E & He). fold b in E, He.
  set (d := match mx with Some m => m - mn | None => 0 end) in *. rewrite E. cbn [bind]. cbv zeta.
  set (cp := copies (class_of t) (S b) k) in *.
  assert (Hl1 : length (st ++ mkState e EMPTY 0 :: cp) = S (b + k)).
  { rewrite app_length. cbn [length]. unfold cp. rewrite copies_length. unfold b. lia. }
  rewrite Hl1.
  assert (Hn2 : nth_error ((st ++ mkState e EMPTY 0 :: cp) ++ [state_new]) (S (b + k)) = Some state_new).
  { rewrite nth_error_app2, Hl1, Nat.sub_diag by lia. reflexivity. }
  rewrite (insert_eps_ok _ _ _ _ _ Hn2) by lia. cbn [bind].
  set (ef1 := ins (eps state_new) (S (b + k) + 1)).
  assert (Hs2 : upd ((st ++ mkState e EMPTY 0 :: cp) ++ [state_new]) (S (b + k)) (set_eps state_new ef1)
    = st ++ mkState e EMPTY 0 :: cp ++ [mkState ef1 EMPTY 0]).
  { rewrite upd_app_r, Hl1, Nat.sub_diag by lia. cbn [upd]. rewrite <- app_assoc. reflexivity. }
  rewrite Hs2.
  set (e2 := if mn =? 0 then ins e (S (b + k)) else e).
  assert (Hs3 : (if mn =? 0 then insert_eps max_blocks (st ++ mkState e EMPTY 0 :: cp ++ [mkState ef1 EMPTY 0]) b (S (b + k))
     else Ok (st ++ mkState e EMPTY 0 :: cp ++ [mkState ef1 EMPTY 0])) = Ok (st ++ mkState e2 EMPTY 0 :: cp ++ [mkState ef1 EMPTY 0])).
  { unfold e2. destruct (mn =? 0); [|reflexivity].
    assert (Hn3 : nth_error (st ++ mkState e EMPTY 0 :: cp ++ [mkState ef1 EMPTY 0]) b = Some (mkState e EMPTY 0)).
    { unfold b. rewrite nth_error_app2, Nat.sub_diag by lia. reflexivity. }
    rewrite (insert_eps_ok _ _ _ _ _ Hn3) by lia. f_equal. unfold b at 1. rewrite upd_app_r, Nat.sub_diag by lia. reflexivity. }
  rewrite Hs3. cbn [bind].
  set (ef2 := match mx with None => ins ef1 (b + k) | Some _ => ef1 end).
  assert (Hs4 : match mx with
      | None => insert_eps max_blocks (st ++ mkState e2 EMPTY 0 :: cp ++ [mkState ef1 EMPTY 0]) (S (b + k)) (b + k)
      | Some _ => Ok (st ++ mkState e2 EMPTY 0 :: cp ++ [mkState ef1 EMPTY 0])
      end = Ok (st ++ mkState e2 EMPTY 0 :: cp ++ [mkState ef2 EMPTY 0])).
  { unfold ef2. destruct mx; [reflexivity|].
    assert (Hl4 : length (st ++ mkState e2 EMPTY 0 :: cp) = S (b + k)).
    { rewrite app_length. cbn [length]. unfold cp. rewrite copies_length. unfold b. lia. }
    assert (Has : forall y, st ++ mkState e2 EMPTY 0 :: cp ++ [y] = (st ++ mkState e2 EMPTY 0 :: cp) ++ [y]).
    { intros y. rewrite <- app_assoc. reflexivity. }
    rewrite Has. assert (Hn4 : nth_error ((st ++ mkState e2 EMPTY 0 :: cp) ++ [mkState ef1 EMPTY 0]) (S (b + k)) = Some (mkState ef1 EMPTY 0)).
    { rewrite nth_error_app2, Hl4, Nat.sub_diag by lia. reflexivity. }
    rewrite (insert_eps_ok _ _ _ _ _ Hn4) by lia. f_equal. rewrite upd_app_r, Hl4, Nat.sub_diag by lia. cbn [upd]. rewrite Has. reflexivity. }
  rewrite Hs4. eexists. split; [reflexivity|]. split.
  2:{ intros y Hy. cbn [nth_error] in Hy. injection Hy as <-. cbn [eps]. unfold e2. destruct (Nat.eqb_spec mn 0) as [Hz|Hz].
    - replace (b + k + 1) with (S (b + k)) by lia. rewrite mem_ins, Nat.eqb_refl. cbn [orb]. split; auto.
    - rewrite He. lia. }
  split; [exact Hk1|]. exists e2, ef2. split; [reflexivity|]. split.
        + exists (if mn =? 0 then S k else S d). unfold e2. destruct (Nat.eqb_spec mn 0) as [Hz|Hz].
          * split; [lia|]. intros j. rewrite mem_ins, orb_true_iff, Nat.eqb_eq, He.
            assert (Hd : mx = None \/ d = k) by (unfold d; destruct mx; [right; rewrite Hz in *; assert (n <> 0) by (intros ->; congruence); lia|auto]).
            destruct Hd as [Hd|Hd]; [|lia]. unfold d. rewrite Hd, Hz in *. lia.
          * assert (Hd : d < k).
            { unfold d. destruct mx as [m|]; [apply Nat.leb_le in Hmx; lia|lia]. }
            split; [lia|]. intros j. rewrite He. lia.
        + unfold ef2, ef1. assert (Hef : forall j, mem (ins (eps state_new) (S (b + k) + 1)) j = true <-> j = b + k + 2).
          { intros j. rewrite mem_ins. cbn [state_new new_transition eps]. rewrite mem_0, orb_false_r, Nat.eqb_eq. lia. }
          destruct mx; [left; exact Hef|right]. intros j. rewrite mem_ins, orb_true_iff, Nat.eqb_eq, Hef. lia.
Qed.

Lemma build_flat ovf a : flat a = true -> forall st, good st -> length st + width a < 32 * max_blocks ->
  exists st', build_states ovf a st = Ok st' /\ good st' /\ length st' = length st + width a.
Proof.
  induction a as [cs|l IH|l IH|l IH|t mn mx IH|k b] using ast_ind'; cbn [flat]; intros Hf st Hg Hw; try discriminate.
  - cbn [build_states width] in *. eexists. split; [reflexivity|]. split; [|rewrite app_length; reflexivity].
    apply good_app; [exact Hg|]. intros [|k] x Hx; [|destruct k; discriminate]. injection Hx as <-. left. cbn. split; [reflexivity|lia].
  - cbn [build_states]. change (width (Sequence l)) with (list_sum (map width l)) in *.
    revert st Hg Hw. induction l as [|t l IHl]; intros st Hg Hw.
    + exists st. cbn. split; [reflexivity|]. split; [exact Hg|lia].
    + cbn [forallb] in Hf. apply andb_true_iff in Hf. destruct Hf as [Hf1 Hf2].
      cbn [map list_sum fold_right] in *. change (fold_right Nat.add 0 (map width l)) with (list_sum (map width l)) in *.
      destruct (Forall_inv IH Hf1 st Hg ltac:(lia)) as (st1 & E1 & G1 & L1).
      destruct (IHl (Forall_inv_tail IH) Hf2 st1 G1 ltac:(lia)) as (st2 & E2 & G2 & L2).
      exists st2. cbn [foldM]. rewrite E1. cbn [bind]. split; [exact E2|]. split; [exact G2|lia].
  - apply andb_true_iff in Hf. destruct Hf as [Ho Hmx].
    assert (Hwt : width t = 1).
    { clear - Ho. induction t as [cs|l IH|l IH|l IH|t mn mx IH|k b] using ast_ind'; cbn [one_class] in Ho; try discriminate; [reflexivity|].
      destruct l as [|t [|t2 l]]; try discriminate. cbn. rewrite (Forall_inv IH Ho). reflexivity. }
    assert (Hmain : forall k, k = Nat.max 1 (Nat.max mn (match mx with Some m => m | None => mn end)) ->
      (mn, mx) <> (0, Some 0) -> length st + (2 + k) < 32 * max_blocks ->
      exists st', (do (st1, final_term_index) <-
            foldM (repeat_step ovf (build_states ovf) (length st) t mn mx) (seq 0 k)
              (st ++ [state_new], 0);
          let final_index := length st1 in
          do st2 <- insert_eps max_blocks (st1 ++ [state_new]) final_index (final_index + 1);
          do st3 <- (if mn =? 0 then insert_eps max_blocks st2 (length st) final_index else Ok st2);
          match mx with
          | None => insert_eps max_blocks st3 final_index final_term_index
          | Some _ => Ok st3
          end) = Ok st' /\ good st' /\ length st' = length st + (2 + k)).
    { intros k Ek Hne Hcap. destruct (build_rep ovf t mn mx st Ho Hmx Hne k Ek Hcap) as (l & E & Hl & _). pose proof (rep_form_length _ _ _ _ Hl) as Hlen.
      exists (st ++ l). split; [exact E|]. split; [|rewrite app_length; lia]. destruct Hl as (Hk1 & e & ef & -> & He & Hef).
      apply good_reps; assumption. }
    assert (H11 : build_states ovf t st = Ok (st ++ [new_transition (class_of t) (length st + 1)])) by (apply one_class_build; exact Ho).
    assert (Hg1 : good (st ++ [new_transition (class_of t) (length st + 1)])).
    { apply good_app; [exact Hg|]. intros [|k] x Hx; [|destruct k; discriminate]. injection Hx as <-. left. cbn. split; [reflexivity|lia]. }
    cbn [build_states]. cbn [width] in Hw |- *. rewrite Hwt, ?Nat.mul_1_r in *.
    destruct mn as [|[|mn]].
    + destruct mx as [[|m]|].
      * exists st. cbn. split; [reflexivity|]. split; [exact Hg|lia].
      * apply (Hmain _ eq_refl); [discriminate|exact Hw].
      * apply (Hmain _ eq_refl); [discriminate|exact Hw].
    + destruct mx as [[|[|m]]|].
      * apply (Hmain _ eq_refl); [discriminate|exact Hw].
      * exists (st ++ [new_transition (class_of t) (length st + 1)]). split; [exact H11|]. split; [exact Hg1|]. rewrite app_length. reflexivity.
      * apply (Hmain _ eq_refl); [discriminate|exact Hw].
      * apply (Hmain _ eq_refl); [discriminate|exact Hw].
    + apply (Hmain _ eq_refl); [discriminate|exact Hw].
Qed.

(** ** The closure of such an automaton *)
Section closing.
  Variables (st0 st1 : list state) (cf : charset).
  Let n0 := length st0.
  Let st := st0 ++ [new_transition cf n0].
  Hypothesis Hg : good st0.
  Hypothesis Hcf : cf <> EMPTY.
  Hypothesis Hlen : length st1 = length st.
  Hypothesis Hst1 : forall i x, nth_error st i = Some x -> exists y, nth_error st1 i = Some y /\
    chars y = chars x /\ next y = next x /\ forall j, mem (eps y) j = true <-> reach st i j.

  Lemma st_len : length st = S n0.
  Proof. unfold st. rewrite app_length. cbn. unfold n0. lia. Qed.

  Definition loops (i : nat) : bool := existsb (fun j => S j =? i) (ones (eps (X st i))).
  Lemma loops_spec i : loops i = true <-> 1 <= i /\ mem (eps (X st i)) (i - 1) = true.
  Proof.
    unfold loops. rewrite existsb_exists. split.
    - intros (j & Hj & E). apply Nat.eqb_eq in E. apply in_ones in Hj. subst i. rewrite Nat.sub_succ, Nat.sub_0_r. split; [lia|exact Hj].
    - intros [H1 H2]. exists (i - 1). split; [apply in_ones; exact H2|]. apply Nat.eqb_eq. lia.
  Qed.

  Lemma st_cases i : i < S n0 ->
    (i < n0 /\ eps (X st i) = 0%N /\ next (X st i) = S i) \/
    (i < n0 /\ isemp st i = true /\ exists u, i < u <= n0 /\ forall j, mem (eps (X st i)) j = true <-> i < j <= u) \/
    (i < n0 /\ isemp st i = true /\ 1 <= i /\ eps (X st (i - 1)) = 0%N /\ next (X st (i - 1)) = i /\
       forall j, mem (eps (X st i)) j = true <-> j = S i \/ S j = i) \/
    (i = n0 /\ eps (X st i) = 0%N /\ next (X st i) = i /\ isemp st i = false).
  Proof.
    intros Hi. destruct (Nat.eq_dec i n0) as [->|Hne].
    - right; right; right. assert (Hx : nth_error st n0 = Some (new_transition cf n0)).
      { unfold st. rewrite nth_error_app2 by (unfold n0; lia). fold n0. rewrite Nat.sub_diag. reflexivity. }
      unfold isemp. rewrite (X_of _ _ _ Hx). cbn. repeat split. apply N.eqb_neq. exact Hcf.
    - assert (Hlt : i < n0) by lia. destruct (nth_some st0 i Hlt) as [x Hx].
      assert (Hx' : nth_error st i = Some x) by (unfold st; rewrite nth_error_app1; assumption).
      unfold isemp. rewrite (X_of _ _ _ Hx').
      destruct (Hg _ _ Hx) as [[S1 S2]|[(S1 & u & S2 & S3)|(S1 & S2 & (y & S3 & S4 & S5) & S6)]].
      + left. auto.
      + right; left. split; [exact Hlt|]. split; [apply N.eqb_eq; exact S1|]. exists u. split; assumption.
      + right; right; left. split; [exact Hlt|]. split; [apply N.eqb_eq; exact S1|]. split; [exact S2|].
        assert (Hy : nth_error st (i - 1) = Some y) by (unfold st; rewrite nth_error_app1; [exact S3|unfold n0 in *; lia]).
        rewrite (X_of _ _ _ Hy). auto.
  Qed.

  Lemma reach_step i j k : i < S n0 -> mem (eps (X st i)) j = true -> reach st j k -> reach st i k.
  Proof.
    intros Hi Hm P. eapply path_eps; [|exact P]. apply edge0. exists (X st i). split; [|exact Hm]. apply X_nth. rewrite st_len. exact Hi.
  Qed.
  Lemma reach_inv i k : reach st i k -> i = k \/ exists j, i < S n0 /\ mem (eps (X st i)) j = true /\ reach st j k.
  Proof.
    intros P. unfold reach in P. inversion P as [s|s t w' r He P'|]; subst; [auto|].
    right. apply edge0 in He. destruct He as (x & Hx & Hm). exists t. rewrite (X_of _ _ _ Hx). split; [|split; [exact Hm|exact P']].
    rewrite <- st_len. eapply nth_lt; exact Hx.
  Qed.
  Lemma reach_dead i k : i < S n0 -> eps (X st i) = 0%N -> reach st i k -> i = k.
  Proof.
    intros Hi He P. destruct (reach_inv _ _ P) as [F|(j & _ & F & _)]; [exact F|]. rewrite He, mem_0 in F. discriminate.
  Qed.

  (** Everything between a state and a state it reaches is reached. *)
  Lemma reach_low i j : i < S n0 -> reach st i j -> j < S n0 /\ (i <= j \/ (S j = i /\ loops i = true)).
  Proof.
    intros Hi P. unfold reach in P. remember (@nil char) as w eqn:Ew. revert Hi Ew.
    induction P as [s|s t w r He P IH|s c t w r He P IH]; intros Hi Ew; [split; [exact Hi|auto]| |discriminate].
    apply edge0 in He. destruct He as (x & Hx & Hm). rewrite <- (X_of _ _ _ Hx) in Hm. subst w.
    destruct (st_cases s Hi) as [(_ & F & _)|[(C1 & C2 & u & C3 & C4)|[(C1 & C2 & C3 & C4 & C5 & C6)|(_ & F & _)]]].
    - rewrite F, mem_0 in Hm. discriminate.
    - apply C4 in Hm. destruct (IH ltac:(lia) eq_refl) as [H1 H2]. split; [exact H1|]. left. lia.
    - pose proof Hm as Hm'. apply C6 in Hm. destruct Hm as [->|Hm].
      + destruct (IH ltac:(lia) eq_refl) as [H1 H2]. split; [exact H1|]. left. lia.
      + assert (t = s - 1) by lia. subst t. assert (s - 1 = r) by (apply (reach_dead (s - 1) r ltac:(lia) C4 P)). subst r.
        split; [lia|]. right. split; [lia|]. apply loops_spec. split; [lia|exact Hm'].
    - rewrite F, mem_0 in Hm. discriminate.
  Qed.
  Lemma reach_convex i j k : i < S n0 -> reach st i j -> i <= k <= j -> reach st i k.
  Proof.
    intros Hi P Hk. unfold reach in P. remember (@nil char) as w eqn:Ew. revert Hi Ew Hk.
    induction P as [s|s t w r He P IH|s c t w r He P IH]; intros Hi Ew Hk; [|subst w|discriminate].
    { replace k with s by lia. constructor. }
    destruct (Nat.eq_dec s k) as [->|Hne]; [constructor|].
    apply edge0 in He. destruct He as (x & Hx & Hm). rewrite <- (X_of _ _ _ Hx) in Hm.
    destruct (st_cases s Hi) as [(_ & F & _)|[(C1 & C2 & u & C3 & C4)|[(C1 & C2 & C3 & C4 & C5 & C6)|(_ & F & _)]]].
    - rewrite F, mem_0 in Hm. discriminate.
    - apply C4 in Hm. destruct (Nat.le_gt_cases t k) as [C|C].
      + eapply (reach_step s t); [exact Hi|apply C4; lia|]. apply IH; [lia|reflexivity|lia].
      + eapply (reach_step s k); [exact Hi|apply C4; lia|constructor].
    - pose proof Hm as Hm'. apply C6 in Hm. destruct Hm as [->|Hm].
      + eapply (reach_step s (S s)); [exact Hi|exact Hm'|]. apply IH; [lia|reflexivity|lia].
      + assert (t = s - 1) by lia. subst t. assert (s - 1 = r) by (apply (reach_dead (s - 1) r ltac:(lia) C4 P)). lia.
    - rewrite F, mem_0 in Hm. discriminate.
  Qed.

  Lemma st1_at i : i < S n0 -> chars (X st1 i) = chars (X st i) /\ next (X st1 i) = next (X st i) /\
    forall j, mem (eps (X st1 i)) j = true <-> reach st i j.
  Proof.
    intros Hi. assert (Hx : nth_error st i = Some (X st i)) by (apply X_nth; rewrite st_len; exact Hi).
    destruct (Hst1 _ _ Hx) as (y & Hy & H1). rewrite (X_of _ _ _ Hy). exact H1.
  Qed.
  Definition high (i : nat) : nat := list_max (ones (eps (X st1 i))).
  Lemma high_spec i : i < S n0 -> reach st i (high i) /\ forall j, reach st i j -> j <= high i.
  Proof.
    intros Hi. destruct (st1_at i Hi) as (_ & _ & E).
    assert (Hub : forall j, reach st i j -> j <= high i).
    { intros j P. apply E in P. apply in_ones in P. unfold high.
      pose proof (proj1 (list_max_le (ones (eps (X st1 i))) (list_max (ones (eps (X st1 i))))) (le_n _)) as F.
      rewrite Forall_forall in F. apply F. exact P. }
    split; [|exact Hub]. apply E. unfold high.
    assert (Hin : forall l, l <> [] -> In (list_max l) l).
    { clear. induction l as [|a l IH]; [congruence|]. intros _. cbn [list_max fold_right].
      change (fold_right Nat.max 0 l) with (list_max l).
      destruct (Nat.max_spec a (list_max l)) as [[F1 F2]|[F1 F2]]; rewrite F2; [|left; reflexivity].
      right. apply IH. intros ->. cbn in F1. lia. }
    apply in_ones. apply Hin. intros F. assert (Hm : mem (eps (X st1 i)) i = true) by (apply E; constructor).
    apply in_ones in Hm. rewrite F in Hm. destruct Hm.
  Qed.

  Lemma closing_ia : ia st1 loops high.
  Proof.
    assert (Hl1 : length st1 = S n0) by (rewrite Hlen; apply st_len).
    assert (Hem : forall i, i < S n0 -> isemp st1 i = isemp st i).
    { intros i Hi. unfold isemp. rewrite (proj1 (st1_at i Hi)). reflexivity. }
    assert (Hhi : forall i, i < S n0 -> i <= high i < S n0).
    { intros i Hi. destruct (high_spec i Hi) as [P Q]. split; [apply Q; constructor|]. apply (reach_low i _ Hi P). }
    assert (Hnl : forall i, i < S n0 -> eps (X st i) = 0%N -> loops i = false).
    { intros i Hi F. destruct (loops i) eqn:Lp; [|reflexivity]. apply loops_spec in Lp. rewrite F, mem_0 in Lp. destruct Lp; discriminate. }
    assert (Hdead : forall i, i < S n0 -> eps (X st i) = 0%N -> high i = i).
    { intros i Hi F. symmetry. apply (reach_dead i _ Hi F). apply (high_spec i Hi). }
    assert (Hlp : forall i, i < S n0 -> loops i = true -> i < n0 /\ isemp st i = true /\ 1 <= i /\ eps (X st (i - 1)) = 0%N /\ next (X st (i - 1)) = i /\
       forall j, mem (eps (X st i)) j = true <-> j = S i \/ S j = i).
    { intros i Hi Lp. pose proof Lp as Lp'. apply loops_spec in Lp. destruct Lp as [P1 P2].
      destruct (st_cases i Hi) as [(_ & F & _)|[(C1 & C2 & u & C3 & C4)|[C|(_ & F & _)]]]; [|apply C4 in P2; lia|exact C|];
      rewrite F, mem_0 in P2; discriminate. }
    assert (Hstep : forall i j, i < S n0 -> mem (eps (X st i)) j = true -> j <= high i).
    { intros i j Hi Hm. apply (high_spec i Hi). apply (reach_step i j j Hi Hm). constructor. }
    split; rewrite ?Hl1.
    - lia.
    - intros i Hi j. destruct (st1_at i Hi) as (_ & _ & E). rewrite E. destruct (high_spec i Hi) as [P Q]. split.
      + intros R. split; [|apply Q; exact R]. destruct (reach_low i j Hi R) as [_ [C|[C1 C2]]]; [lia|]. rewrite C2. cbn [b2n]. lia.
      + intros [R1 R2]. destruct (Nat.le_gt_cases i j) as [C|C].
        * apply (reach_convex i (high i)); [exact Hi|exact P|lia].
        * destruct (loops i) eqn:Lp; cbn [b2n] in R1; [|lia]. apply loops_spec in Lp. destruct Lp as [L1 L2].
          replace j with (i - 1) by lia. apply (reach_step i (i - 1)); [exact Hi|exact L2|constructor].
    - exact Hhi.
    - intros i j Hi Hj. pose proof (Hhi i Hi). destruct (high_spec i Hi) as [P Q]. destruct (high_spec j ltac:(lia)) as [P' _].
      apply Q. unfold reach. apply (path_app (edge 0 st) i [] j [] (high j)); [|exact P']. apply (reach_convex i (high i)); [exact Hi|exact P|lia].
    - intros i Hi Lp. destruct (Hlp i Hi Lp) as (C1 & C2 & C3 & C4 & C5 & C6). split; [exact C3|].
      split; [apply Hnl; [lia|exact C4]|]. rewrite (Hdead (i - 1) ltac:(lia) C4), (Hem i Hi).
      pose proof (Hstep i (S i) Hi ltac:(apply C6; auto)). split; [lia|]. split; [exact C2|lia].
    - intros i Hi Hch. rewrite (Hem i Hi) in Hch. rewrite (proj1 (proj2 (st1_at i Hi))).
      destruct (st_cases i Hi) as [(C1 & C2 & C3)|[(C1 & C2 & u & C3 & C4)|[(C1 & C2 & C3 & C4 & C5 & C6)|(C1 & C2 & C3 & C4)]]].
      + left. split; [exact C3|lia].
      + exfalso. pose proof (Hstep i (S i) Hi ltac:(apply C4; lia)). destruct Hch as [F|[F _]]; [congruence|lia].
      + exfalso. pose proof (Hstep i (S i) Hi ltac:(apply C6; auto)). destruct Hch as [F|[F _]]; [congruence|lia].
      + right; right. rewrite C3. split; [intros k Hk; pose proof (Hhi k ltac:(lia)); lia|]. split; [lia|auto].
    - intros i Hi Lp _. destruct (Hlp i Hi Lp) as (C1 & C2 & C3 & C4 & C5 & C6). rewrite (proj1 (proj2 (st1_at (i - 1) ltac:(lia)))). exact C5.
    - rewrite Nat.sub_succ, Nat.sub_0_r. assert (Hi : n0 < S n0) by lia. rewrite (Hem _ Hi), (proj1 (proj2 (st1_at _ Hi))).
      destruct (st_cases n0 Hi) as [(F & _)|[(F & _)|[(F & _)|(C1 & C2 & C3 & C4)]]]; [lia|lia|lia|auto].
  Qed.
End closing.

Lemma flat_safe ovf a st : flat a = true -> width a < MAX_SET_SIZE -> build_all ovf a = Ok st -> optimize_safe st = true.
Proof.
  intros Hf Hw Hb. pose proof (flat_wf _ Hf) as Hwf.
  destruct (build_nfa ovf a Hwf Hw) as (st' & Hb' & Hn & _ & _). assert (st' = st) by congruence. subst st'. clear Hb'.
  unfold build_all in Hb.
  destruct (build_flat ovf a Hf [] ltac:(intros [|i] x Hx; discriminate) ltac:(cbn [length plus]; rewrite max_eq; exact Hw)) as (st0 & E0 & G0 & _).
  rewrite E0 in Hb. cbn [bind] in Hb. injection Hb as <-.
  assert (Hc : in_cap max_blocks (st0 ++ [new_transition (charset_of WORD_END) (length st0)])).
  { split; [apply Hn|]. intros i x j Hx Hj. destruct (o_rng _ _ Hn _ _ Hx) as [_ H2]. specialize (H2 _ Hj).
    pose proof (o_cap _ _ Hn). lia. }
  destruct (closure_ok _ _ Hc) as (st1 & E1 & L1 & H1).
  unfold optimize_safe. eapply (optimize_ia _ _ _ st1); [exact Hn|exact E1|].
  eapply (closing_ia st0 st1 (charset_of WORD_END)); [exact G0|vm_compute; discriminate|exact L1|exact H1].
Qed.
