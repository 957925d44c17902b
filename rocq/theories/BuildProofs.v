(** Proofs about [build_states]. *)
From Verif Require Export BaseProofs WordsProofs Nfa Lang.

Lemma edge_app k a b s l t :
  edge k (a ++ b) s l t <-> edge k a s l t \/ edge (k + length a) b s l t.
Proof.
  unfold edge. split.
  - intros (x & Hk & Hn & Hl). destruct (Nat.lt_ge_cases (s - k) (length a)) as [H|H].
    + left. exists x. rewrite nth_error_app1 in Hn by exact H. auto.
    + right. exists x. rewrite nth_error_app2 in Hn by exact H.
      assert (s - (k + length a) = s - k - length a) as -> by lia.
      split; [|auto].
      destruct b; [destruct (s - k - length a); discriminate|]. lia.
  - intros [(x & Hk & Hn & Hl)|(x & Hk & Hn & Hl)]; exists x.
    + split; [exact Hk|]. rewrite nth_error_app1; [auto|].
      apply nth_error_Some. congruence.
    + split; [lia|]. rewrite nth_error_app2 by lia.
      replace (s - k - length a) with (s - (k + length a)) by lia. auto.
Qed.

Lemma edge_nil k s l t : ~ edge k [] s l t.
Proof. intros (x & _ & H & _). destruct (s - k); discriminate. Qed.

Lemma edge_src k fr s l t : edge k fr s l t -> k <= s < k + length fr.
Proof.
  intros (x & Hk & Hn & _). assert (s - k < length fr) by (apply nth_error_Some; congruence). lia.
Qed.

Lemma edge_one k x s l t : edge k [x] s l t <->
  s = k /\ match l with None => mem (eps x) t = true
                      | Some c => cs_contains (chars x) c = true /\ next x = t end.
Proof.
  split.
  - intros H. assert (s = k) by (apply edge_src in H; cbn in H; lia). subst s. split; [reflexivity|].
    destruct H as (y & _ & Hn & Hl). rewrite Nat.sub_diag in Hn. injection Hn as <-. exact Hl.
  - intros [-> H]. exists x. rewrite Nat.sub_diag. auto.
Qed.

Lemma cs_contains_EMPTY c : cs_contains EMPTY c = false.
Proof. reflexivity. Qed.

(** ** Paths *)
Definition graph := nat -> option char -> nat -> Prop.
Lemma path_mono (E E' : graph) s w t :
  (forall s l t, E s l t -> E' s l t) -> path E s w t -> path E' s w t.
Proof.
  intros H P. induction P; [constructor|eapply path_eps; eauto|eapply path_chr; eauto].
Qed.

Lemma path_app (E : graph) s w t v u : path E s w t -> path E t v u -> path E s (w ++ v) u.
Proof.
  intros P Q. induction P; [exact Q|eapply path_eps; eauto|].
  cbn. eapply path_chr; eauto.
Qed.

Definition lab (l : option char) (w : list char) : list char :=
  match l with None => w | Some c => c :: w end.

Lemma path_step (E : graph) s l t w u : E s l t -> path E t w u -> path E s (lab l w) u.
Proof. destruct l; cbn; intros; [eapply path_chr|eapply path_eps]; eauto. Qed.

Lemma path_sound (E : graph) (K : nat -> language) b :
  (forall s l t w, E s l t -> K t w -> K s (lab l w)) -> K b [] ->
  forall s w, path E s w b -> K s w.
Proof.
  intros Hs Hb s w P. remember b as b' eqn:Eb. revert Eb.
  induction P; intros ->.
  - exact Hb.
  - apply (Hs s None t w); auto.
  - apply (Hs s (Some c) t w); auto.
Qed.

Lemma path_last (E : graph) s w t : path E s w t ->
  (s = t /\ w = []) \/ exists s' l w', path E s w' s' /\ E s' l t /\ w = w' ++ lab l [].
Proof.
  intros P. induction P as [s|s t w u He P IH|s c t w u He P IH].
  - left; auto.
  - right. destruct IH as [[-> ->]|(s' & l & w' & P' & E' & ->)].
    + exists s, None, []. repeat split; [constructor|exact He].
    + exists s', l, w'. repeat split; [eapply path_eps; eauto|exact E'].
  - right. destruct IH as [[-> ->]|(s' & l & w' & P' & E' & ->)].
    + exists s, (Some c), []. repeat split; [constructor|exact He].
    + exists s', l, (c :: w'). repeat split; [eapply path_chr; eauto|exact E'].
Qed.

(** No edge leaves [t]: paths from it are empty. *)
Lemma path_stuck (E : graph) t w u : (forall l v, ~ E t l v) -> path E t w u -> w = [] /\ u = t.
Proof. intros H P. destruct P; [auto| |]; exfalso; eapply H; eauto. Qed.

(** ** Languages *)
Definition leq (L M : language) := forall w, L w <-> M w.
Lemma leq_refl L : leq L L. Proof. firstorder. Qed.
Lemma leq_sym L M : leq L M -> leq M L. Proof. firstorder. Qed.
Lemma leq_trans L M P : leq L M -> leq M P -> leq L P. Proof. unfold leq. intros H1 H2 w. rewrite H1. apply H2. Qed.
Lemma cat_leq L L' M M' : leq L L' -> leq M M' -> leq (cat L M) (cat L' M').
Proof.
  intros H1 H2 w. unfold cat. split; intros (u & v & -> & Hu & Hv); exists u, v;
    (split; [reflexivity|]); split; first [apply H1|apply H2]; assumption.
Qed.
Lemma cat_assoc L M P : leq (cat (cat L M) P) (cat L (cat M P)).
Proof.
  intros w. split.
  - intros (u & v & -> & (u1 & u2 & -> & H1 & H2) & Hv).
    exists u1, (u2 ++ v). rewrite app_assoc. repeat split; auto. exists u2, v; auto.
  - intros (u & v & -> & Hu & (v1 & v2 & -> & H1 & H2)).
    exists (u ++ v1), v2. rewrite app_assoc. repeat split; auto. exists u, v1; auto.
Qed.
Lemma cat_empty_l L : leq (cat empty_string L) L.
Proof.
  intros w. split.
  - intros (u & v & -> & -> & H). exact H.
  - intros H. exists [], w. repeat split; auto.
Qed.
Lemma cat_empty_r L : leq (cat L empty_string) L.
Proof.
  intros w. split.
  - intros (u & v & -> & H & ->). rewrite app_nil_r. exact H.
  - intros H. exists w, []. rewrite app_nil_r. repeat split; auto.
Qed.
Lemma cats_app Ls Ms : leq (cats (Ls ++ Ms)) (cat (cats Ls) (cats Ms)).
Proof.
  induction Ls as [|L Ls IH]; cbn.
  - apply leq_sym, cat_empty_l.
  - eapply leq_trans; [apply cat_leq; [apply leq_refl|exact IH]|]. apply leq_sym, cat_assoc.
Qed.
Lemma power_leq L M n : leq L M -> leq (power L n) (power M n).
Proof. intros H. induction n; cbn; [apply leq_refl|apply cat_leq; assumption]. Qed.
Lemma power_add L n m : leq (power L (n + m)) (cat (power L n) (power L m)).
Proof.
  induction n as [|n IH]; cbn.
  - apply leq_sym, cat_empty_l.
  - eapply leq_trans; [apply cat_leq; [apply leq_refl|exact IH]|]. apply leq_sym, cat_assoc.
Qed.

(** ** Fragments *)
Definition last_state (fr : list state) : option state := nth_error fr (length fr - 1).

Record frag (k n : nat) (lo ce : bool) (L : language) (fr : list state) : Prop := {
  f_len : length fr = n;
  f_tgt : forall s l t, edge k fr s l t -> k < t <= k + n;
  f_next : forall x, last_state fr = Some x -> chars x <> EMPTY -> next x = k + n;
  f_lo : lo = true -> forall s l, edge k fr s l (k + n) -> S s = k + n;
  f_ce : ce = true -> exists x, last_state fr = Some x /\ chars x <> EMPTY;
  f_lang : forall w, path (edge k fr) k w (k + n) <-> L w
}.

Lemma last_state_app a b : b <> [] -> last_state (a ++ b) = last_state b.
Proof.
  intros H. unfold last_state. rewrite app_length.
  assert (length b > 0) by (destruct b; [congruence|cbn; lia]).
  rewrite nth_error_app2 by lia. f_equal. lia.
Qed.

Lemma frag_leq k n lo ce L M fr : leq L M -> frag k n lo ce L fr -> frag k n lo ce M fr.
Proof. intros H [H1 H2 H3 H4 H5 H6]. constructor; auto. intros w. rewrite H6. apply H. Qed.

Lemma frag_nil k : frag k 0 true false empty_string [].
Proof.
  constructor; try discriminate; auto.
  - intros s l t H. destruct (edge_nil _ _ _ _ H).
  - intros _ s l H. destruct (edge_nil _ _ _ _ H).
  - intros w. rewrite Nat.add_0_r. unfold empty_string. split; intros H.
    + apply path_stuck in H; [tauto|]. intros l v. apply edge_nil.
    + subst. constructor.
Qed.

Lemma frag_app k n1 lo1 ce1 L1 fr1 n2 lo2 ce2 L2 fr2 :
  frag k n1 lo1 ce1 L1 fr1 -> frag (k + n1) n2 lo2 ce2 L2 fr2 ->
  frag k (n1 + n2) (if n2 =? 0 then lo1 else lo2) (if n2 =? 0 then ce1 else ce2)
    (cat L1 L2) (fr1 ++ fr2).
Proof.
  intros F1 F2.
  assert (HE : forall s l t, edge k (fr1 ++ fr2) s l t <-> edge k fr1 s l t \/ edge (k + n1) fr2 s l t).
  { intros. rewrite edge_app, (f_len _ _ _ _ _ _ F1). reflexivity. }
  destruct (Nat.eqb_spec n2 0) as [Hz|Hnz].
  - assert (fr2 = []) by (apply length_zero_iff_nil; rewrite (f_len _ _ _ _ _ _ F2); exact Hz).
    subst fr2 n2. rewrite app_nil_r, Nat.add_0_r. destruct F1. constructor; auto.
    intros w. rewrite f_lang0.
    assert (HL2 : forall w, L2 w <-> w = []).
    { intros v. rewrite <- (f_lang _ _ _ _ _ _ F2). rewrite Nat.add_0_r. split; intros H.
      - apply path_stuck in H; [tauto|]. intros l u. apply edge_nil.
      - subst. constructor. }
    split.
    + intros H. exists w, []. rewrite app_nil_r. repeat split; auto. apply HL2. reflexivity.
    + intros (u & v & -> & Hu & Hv). apply HL2 in Hv. subst v. rewrite app_nil_r. exact Hu.
  - assert (fr2 <> []) by (intros ->; apply Hnz; rewrite <- (f_len _ _ _ _ _ _ F2); reflexivity).
    pose proof (f_len _ _ _ _ _ _ F1) as Hl1. pose proof (f_len _ _ _ _ _ _ F2) as Hl2.
    constructor.
    + rewrite app_length. lia.
    + intros s l t H'. apply HE in H'. destruct H' as [H'|H'];
        [apply (f_tgt _ _ _ _ _ _ F1) in H'|apply (f_tgt _ _ _ _ _ _ F2) in H']; lia.
    + intros x. rewrite last_state_app by assumption. intros Hx Hc.
      rewrite (f_next _ _ _ _ _ _ F2 x Hx Hc). lia.
    + intros Hlo s l H'. apply HE in H'. destruct H' as [H'|H'].
      * apply (f_tgt _ _ _ _ _ _ F1) in H'. lia.
      * replace (k + (n1 + n2)) with (k + n1 + n2) in * by lia.
        exact (f_lo _ _ _ _ _ _ F2 Hlo _ _ H').
    + intros Hce. rewrite last_state_app by assumption. exact (f_ce _ _ _ _ _ _ F2 Hce).
    + intros w. split.
      * intros P.
        set (K := fun s w => (k + n1 <= s /\ path (edge (k + n1) fr2) s w (k + n1 + n2)) \/
                  (s < k + n1 /\ exists u v, w = u ++ v /\ path (edge k fr1) s u (k + n1) /\ L2 v)).
        assert (HK : K k w).
        { apply (path_sound (edge k (fr1 ++ fr2)) K (k + (n1 + n2))); [| |exact P].
          - intros s l t v He Ht. apply HE in He. destruct He as [He|He].
            + right. pose proof (edge_src _ _ _ _ _ He). split; [lia|].
              destruct Ht as [[Ht Hp]|[Ht (u & v' & -> & Hu & Hv)]].
              * assert (t = k + n1) by (apply (f_tgt _ _ _ _ _ _ F1) in He; lia). subst t.
                exists (lab l []), v. split; [destruct l; reflexivity|]. split.
                -- eapply path_step; [exact He|constructor].
                -- apply (f_lang _ _ _ _ _ _ F2). exact Hp.
              * exists (lab l u), v'. split; [destruct l; reflexivity|]. split; [|exact Hv].
                eapply path_step; eauto.
            + left. pose proof (edge_src _ _ _ _ _ He). split; [lia|].
              pose proof (f_tgt _ _ _ _ _ _ F2 _ _ _ He).
              destruct Ht as [[Ht Hp]|[Ht _]]; [|lia]. eapply path_step; eauto.
          - left. split; [lia|]. rewrite Nat.add_assoc. constructor. }
        destruct HK as [[Hk Hp]|[Hk (u & v & -> & Hu & Hv)]].
        -- assert (Hz : k + n1 = k) by lia. exists [], w. split; [reflexivity|]. split.
           ++ apply (f_lang _ _ _ _ _ _ F1). rewrite Hz. constructor.
           ++ apply (f_lang _ _ _ _ _ _ F2). rewrite Hz in Hp |- *. exact Hp.
        -- exists u, v. split; [reflexivity|]. split; [|exact Hv]. apply (f_lang _ _ _ _ _ _ F1). exact Hu.
      * intros (u & v & -> & Hu & Hv). apply (f_lang _ _ _ _ _ _ F1) in Hu.
        apply (f_lang _ _ _ _ _ _ F2) in Hv. eapply path_app.
        -- eapply path_mono; [|exact Hu]. intros s l t Hst. apply HE. left; exact Hst.
        -- rewrite Nat.add_assoc. eapply path_mono; [|exact Hv]. intros s l t Hst. apply HE. right; exact Hst.
Qed.

(** ** Fragments laid out one after the other *)
Definition frag_ok (k : nat) (fr : list state) (a : ast) : Prop :=
  frag k (width a) (last_only a) (char_ended a) (matches a) fr.
Definition item := (ast * list state)%type.
Fixpoint laid (o : nat) (its : list item) : Prop :=
  match its with
  | [] => True
  | (t, fr) :: r => frag_ok o fr t /\ laid (o + width t) r
  end.
Definition frs (its : list item) : list state := concat (map snd its).
Definition wsum (l : list ast) : nat := list_sum (map width l).
Definition W (its : list item) : nat := wsum (map fst its).

Lemma wsum_app a b : wsum (a ++ b) = wsum a + wsum b.
Proof. unfold wsum. rewrite map_app, list_sum_app. reflexivity. Qed.
Lemma W_app a b : W (a ++ b) = W a + W b.
Proof. unfold W. rewrite map_app. apply wsum_app. Qed.
Lemma W_cons t fr r : W ((t, fr) :: r) = width t + W r.
Proof. reflexivity. Qed.

Lemma laid_app o a b : laid o (a ++ b) <-> laid o a /\ laid (o + W a) b.
Proof.
  revert o. induction a as [|[t fr] a IH]; intros o.
  - cbn. rewrite Nat.add_0_r. tauto.
  - cbn [app laid]. rewrite IH, W_cons, Nat.add_assoc. tauto.
Qed.
Definition sized (its : list item) : Prop := Forall (fun it => length (snd it) = width (fst it)) its.
Lemma laid_sized o its : laid o its -> sized its.
Proof.
  revert o. induction its as [|[t fr] r IH]; intros o; [constructor|].
  intros [H1 H2]. constructor; [exact (f_len _ _ _ _ _ _ H1)|exact (IH _ H2)].
Qed.
Lemma frs_sized its : sized its -> length (frs its) = W its.
Proof.
  induction 1 as [|[t fr] r H Hr IH]; [reflexivity|].
  unfold frs. cbn [map concat snd]. rewrite app_length, W_cons. cbn in H. rewrite H.
  f_equal. exact IH.
Qed.
Lemma frs_len o its : laid o its -> length (frs its) = W its.
Proof. intros H. apply frs_sized. eapply laid_sized; eauto. Qed.
Lemma edge_frs o its s l t : sized its ->
  (edge o (frs its) s l t <->
   exists pre a fr post, its = pre ++ (a, fr) :: post /\ edge (o + W pre) fr s l t).
Proof.
  revert o. induction its as [|[a fr] r IH]; intros o H.
  - split; [intros H'; destruct (edge_nil _ _ _ _ H')|].
    intros (pre & a & fr & post & H' & _). destruct pre; discriminate.
  - inversion H as [|? ? H1 H2]; subst. cbn in H1. unfold frs. cbn [map concat snd]. rewrite edge_app.
    rewrite H1. change (concat (map snd r)) with (frs r).
    rewrite (IH _ H2). split.
    + intros [He|(pre & a' & fr' & post & -> & He)].
      * exists [], a, fr, r. rewrite Nat.add_0_r. auto.
      * exists ((a, fr) :: pre), a', fr', post. rewrite W_cons, Nat.add_assoc. auto.
    + intros (pre & a' & fr' & post & Heq & He). destruct pre as [|[a'' fr''] pre].
      * injection Heq as <- <- <-. rewrite Nat.add_0_r in He. left; exact He.
      * injection Heq as <- <- ->. right. exists pre, a', fr', post.
        rewrite W_cons, Nat.add_assoc in He. auto.
Qed.

Fixpoint starts (o : nat) (l : list ast) : list nat :=
  match l with [] => [] | t :: r => o :: starts (o + width t) r end.
Fixpoint ends (o : nat) (l : list ast) : list nat :=
  match l with [] => [] | t :: r => (o + width t - 1) :: ends (o + width t) r end.

Lemma in_starts o its x : In x (starts o (map fst its)) <->
  exists pre a fr post, its = pre ++ (a, fr) :: post /\ x = o + W pre.
Proof.
  revert o. induction its as [|[a fr] r IH]; intros o; cbn [map starts In fst].
  - split; [tauto|]. intros (pre & a & fr & post & H & _). destruct pre; discriminate.
  - rewrite IH. split.
    + intros [<-|(pre & a' & fr' & post & -> & ->)].
      * exists [], a, fr, r. rewrite Nat.add_0_r. auto.
      * exists ((a, fr) :: pre), a', fr', post. rewrite W_cons, Nat.add_assoc. auto.
    + intros (pre & a' & fr' & post & Heq & ->). destruct pre as [|[a'' fr''] pre].
      * left. cbn. lia.
      * injection Heq as <- <- ->. right. exists pre, a', fr', post. rewrite W_cons, Nat.add_assoc. auto.
Qed.

Definition builds (ovf : bool) (t : ast) : Prop :=
  forall st, length st + width t < MAX_SET_SIZE ->
    exists fr, build_states ovf t st = Ok (st ++ fr) /\ frag_ok (length st) fr t.

Lemma upd_app_r {A} (a b : list A) i x : length a <= i -> upd (a ++ b) i x = a ++ upd b (i - length a) x.
Proof.
  revert i. induction a as [|y a IH]; intros i H; cbn.
  - rewrite Nat.sub_0_r. reflexivity.
  - destruct i; cbn in H; [lia|]. cbn. rewrite IH by lia. reflexivity.
Qed.
Lemma upd_app_l {A} (a b : list A) i x : i < length a -> upd (a ++ b) i x = upd a i x ++ b.
Proof.
  revert i. induction a as [|y a IH]; intros i H; cbn in *; [lia|].
  destruct i; cbn; [reflexivity|]. rewrite IH by lia. reflexivity.
Qed.
Lemma chk_ok n i : i < 32 * n -> chk n i = Ok tt.
Proof. intros H. unfold chk. apply Nat.ltb_lt in H. rewrite H. reflexivity. Qed.
Lemma max_eq : 32 * max_blocks = MAX_SET_SIZE.
Proof. vm_compute. reflexivity. Qed.
Lemma chk_max i : i < MAX_SET_SIZE -> chk max_blocks i = Ok tt.
Proof. intros H. apply chk_ok. rewrite max_eq. exact H. Qed.
Lemma index_mid {A} (a : list A) x b : index (a ++ x :: b) (length a) = Ok x.
Proof. apply index_Ok. rewrite nth_error_app2 by lia. rewrite Nat.sub_diag. reflexivity. Qed.
Lemma upd_mid {A} (a : list A) x b y : upd (a ++ x :: b) (length a) y = a ++ y :: b.
Proof. rewrite upd_app_r by lia. rewrite Nat.sub_diag. reflexivity. Qed.

Lemma insert_mid st x r j : j < MAX_SET_SIZE ->
  insert_eps max_blocks (st ++ x :: r) (length st) j = Ok (st ++ set_eps x (ins (eps x) j) :: r).
Proof.
  intros H. unfold insert_eps. rewrite index_mid. cbn [bind]. rewrite (chk_max _ H). cbn [bind].
  rewrite upd_mid. reflexivity.
Qed.

Opaque MAX_SET_SIZE max_blocks.

Lemma branch_loop ovf l : Forall (builds ovf) l -> Forall (fun t => 0 < width t) l ->
  forall st E fs es,
  length st + 1 + length fs + wsum l < MAX_SET_SIZE ->
  exists its E',
    foldM (branch_step (build_states ovf) (length st)) l (st ++ mkState E EMPTY 0 :: fs, es)
      = Ok (st ++ mkState E' EMPTY 0 :: fs ++ frs its, es ++ ends (length st + 1 + length fs) l)
    /\ map fst its = l /\ laid (length st + 1 + length fs) its
    /\ forall t, mem E' t = true <-> mem E t = true \/ In t (starts (length st + 1 + length fs) l).
Proof.
  intros HB HW. induction HB as [|t l Ht HB IH]; intros st E fs es Hlen.
  - exists [], E. cbn. rewrite !app_nil_r. repeat split; auto. tauto.
  - inversion HW as [|? ? Hw HW']; subst. specialize (IH HW').
    cbn [wsum map list_sum fold_right] in Hlen.
    assert (Hlen' : length st + 1 + length fs + (width t + wsum l) < MAX_SET_SIZE) by (exact Hlen).
    cbn [foldM]. unfold branch_step at 1.
    assert (Hl1 : length (st ++ mkState E EMPTY 0 :: fs) = length st + 1 + length fs)
      by (rewrite app_length; cbn; lia).
    rewrite Hl1, insert_mid by lia. unfold set_eps; cbn [bind eps chars next].
    set (o := length st + 1 + length fs) in *.
    destruct (Ht (st ++ mkState (ins E o) EMPTY 0 :: fs)) as (fr & Hfr & Fr).
    { rewrite app_length; cbn. unfold o in *; lia. }
    rewrite Hfr. cbn [bind].
    assert (Hl2 : length (st ++ mkState (ins E o) EMPTY 0 :: fs) = o)
      by (rewrite app_length; cbn; unfold o; lia).
    rewrite Hl2 in Fr. pose proof (f_len _ _ _ _ _ _ Fr) as Hlf.
    rewrite <- app_assoc. cbn [app].
    assert (Hcs : checked_sub (length (st ++ mkState (ins E o) EMPTY 0 :: fs ++ fr)) 1 = Ok (o + width t - 1)).
    { unfold checked_sub. rewrite app_length. cbn [length]. rewrite app_length.
      replace (length st + S (length fs + length fr)) with (o + width t) by (unfold o; lia).
      replace (1 <=? o + width t) with true by (symmetry; apply Nat.leb_le; lia). reflexivity. }
    rewrite Hcs. cbn [bind].
    destruct (IH st (ins E o) (fs ++ fr) (es ++ [o + width t - 1])) as (its & E' & Hf & Hm & Hla & HE).
    { rewrite app_length. unfold o in *. lia. }
    assert (Ho : length st + 1 + length (fs ++ fr) = o + width t)
      by (rewrite app_length; unfold o; lia).
    rewrite Ho in *.
    exists ((t, fr) :: its), E'. split; [|split; [|split]].
    + rewrite Hf. f_equal. f_equal.
      * unfold frs. cbn [map concat snd]. rewrite <- !app_assoc. reflexivity.
      * rewrite <- app_assoc. reflexivity.
    + cbn. rewrite Hm. reflexivity.
    + cbn. split; assumption.
    + intros x. rewrite HE, mem_ins. cbn [starts In].
      rewrite orb_true_iff, Nat.eqb_eq. intuition.
Qed.

(** ** Alternatives *)
Definition rp_state (X e1 : nat) (x : state) : state :=
  mkState (if mem (eps x) e1 then ins (rem (eps x) e1) X else eps x) (chars x) X.
Definition rp (X o : nat) (fr : list state) : list state :=
  match last_state fr with
  | Some x => upd fr (length fr - 1) (rp_state X (o + length fr) x)
  | None => fr
  end.
Fixpoint rp_items (X o : nat) (its : list item) : list item :=
  match its with
  | [] => []
  | (t, fr) :: r => (t, rp X o fr) :: rp_items X (o + width t) r
  end.

Lemma rp_length X o fr : length (rp X o fr) = length fr.
Proof. unfold rp. destruct (last_state fr); [apply upd_length|reflexivity]. Qed.

Lemma last_state_some fr : fr <> [] -> exists x, last_state fr = Some x.
Proof.
  intros H. unfold last_state. destruct (nth_error fr (length fr - 1)) eqn:E; [eauto|].
  apply nth_error_None in E. destruct fr; [congruence|cbn in E; lia].
Qed.

Lemma repoint_loop X its : X < MAX_SET_SIZE -> Forall (fun t => 0 < width t) (map fst its) ->
  forall pre, sized its -> length pre + W its < MAX_SET_SIZE ->
  foldM (repoint X) (ends (length pre) (map fst its)) (pre ++ frs its)
    = Ok (pre ++ frs (rp_items X (length pre) its)).
Proof.
  intros HX. induction its as [|[t fr] r IH]; intros Hw pre Hs Hlen; [reflexivity|].
  cbn [map fst] in Hw. inversion Hw as [|? ? Hwt Hwr]; subst.
  inversion Hs as [|? ? Hft Hsr]; subst. cbn in Hft. rewrite W_cons in Hlen.
  cbn [map fst ends foldM].
  destruct (last_state_some fr) as [x Hx]; [intros ->; cbn in Hft; lia|].
  unfold frs. cbn [map snd concat]. fold (frs r).
  assert (Hidx : index (pre ++ fr ++ frs r) (length pre + width t - 1) = Ok x).
  { apply index_Ok. rewrite nth_error_app2 by lia. rewrite nth_error_app1 by lia.
    unfold last_state in Hx. rewrite <- Hx. f_equal. lia. }
  unfold repoint at 1. rewrite Hidx. cbn [bind].
  replace (length pre + width t - 1 + 1) with (length pre + width t) by lia.
  rewrite chk_max by lia. cbn [bind].
  assert (Hstep : (do x' <- (if mem (eps x) (length pre + width t)
              then do _ <- chk max_blocks X; Ok (set_eps x (ins (rem (eps x) (length pre + width t)) X))
              else Ok x);
       Ok (upd (pre ++ fr ++ frs r) (length pre + width t - 1) (set_next x' X)))
     = Ok ((pre ++ rp X (length pre) fr) ++ frs r)).
  { unfold rp. rewrite Hx. unfold rp_state. rewrite Hft. rewrite <- app_assoc.
    destruct (mem (eps x) (length pre + width t)); [rewrite (chk_max _ HX)|]; cbn [bind];
      rewrite upd_app_r by lia; rewrite upd_app_l by lia;
      replace (length pre + width t - 1 - length pre) with (width t - 1) by lia; reflexivity. }
  rewrite Hstep. cbn [bind].
  specialize (IH Hwr (pre ++ rp X (length pre) fr) Hsr).
  rewrite app_length, rp_length, Hft in IH. rewrite IH by lia.
  cbn [rp_items map snd concat]. rewrite <- app_assoc. reflexivity.
Qed.

Lemma rp_items_sized X o its : sized its -> sized (rp_items X o its).
Proof.
  revert o. induction its as [|[t fr] r IH]; intros o H; cbn; [constructor|].
  inversion H; subst. constructor; [cbn in *; rewrite rp_length; assumption|apply IH; assumption].
Qed.
Lemma rp_items_fst X o its : map fst (rp_items X o its) = map fst its.
Proof. revert o. induction its as [|[t fr] r IH]; intros o; cbn; [|rewrite IH]; reflexivity. Qed.
Lemma rp_items_split X o its pre a fr post :
  rp_items X o its = pre ++ (a, fr) :: post <->
  exists pre' fr' post', its = pre' ++ (a, fr') :: post' /\ pre = rp_items X o pre' /\
    fr = rp X (o + W pre') fr' /\ post = rp_items X (o + W pre' + width a) post'.
Proof.
  split.
  - revert o pre. induction its as [|[t f] r IH]; intros o pre H; cbn in H.
    + destruct pre; discriminate.
    + destruct pre as [|p pre]; cbn in H.
      * injection H as <- <- <-. exists [], f, r. cbn. rewrite Nat.add_0_r. auto.
      * injection H as <- H. destruct (IH _ _ H) as (pre' & fr' & post' & -> & -> & -> & ->).
        exists ((t, f) :: pre'), fr', post'. cbn [rp_items]. rewrite W_cons.
        rewrite !Nat.add_assoc. auto.
  - intros (pre' & fr' & post' & -> & -> & -> & ->). revert o.
    induction pre' as [|[t f] pre' IH]; intros o; cbn.
    + rewrite Nat.add_0_r. reflexivity.
    + rewrite IH, !Nat.add_assoc. reflexivity.
Qed.

Lemma chars_contains x c : cs_contains (chars x) c = true -> chars x <> EMPTY.
Proof. intros H E. rewrite E in H. discriminate. Qed.

Lemma edge_rp X o n lo ce L fr : frag o n lo ce L fr -> 0 < n -> (lo = true \/ X = o + n) ->
  forall s l t, edge o (rp X o fr) s l t <->
    exists t0, edge o fr s l t0 /\ t = if t0 =? o + n then X else t0.
Proof.
  intros F Hn HX s l t. pose proof (f_len _ _ _ _ _ _ F) as Hlen.
  destruct (last_state_some fr) as [x Hx]; [intros ->; cbn in Hlen; lia|].
  pose proof Hx as Hx'. unfold last_state in Hx'. rewrite Hlen in Hx'.
  unfold rp. rewrite Hx, Hlen.
  unfold edge at 1.
  assert (Hnth : nth_error (upd fr (n - 1) (rp_state X (o + n) x)) (s - o)
    = if n - 1 =? s - o then Some (rp_state X (o + n) x) else nth_error fr (s - o)).
  { rewrite nth_error_upd. destruct (Nat.eqb_spec (n - 1) (s - o)); [|reflexivity].
    replace (s - o <? length fr) with true by (symmetry; apply Nat.ltb_lt; lia). reflexivity. }
  rewrite Hnth. destruct (Nat.eqb_spec (n - 1) (s - o)) as [Es|Es].
  - split.
    + intros (y & Hs & Hy & Hl). injection Hy as <-. unfold rp_state in Hl. destruct l as [c|]; cbn in Hl.
      * destruct Hl as [Hc <-]. exists (o + n). rewrite Nat.eqb_refl. split; [|reflexivity].
        exists x. rewrite <- Es. repeat split; auto. apply (f_next _ _ _ _ _ _ F x Hx).
        eapply chars_contains; eauto.
      * destruct (mem (eps x) (o + n)) eqn:Em.
        -- rewrite mem_ins, mem_rem in Hl. apply orb_true_iff in Hl. destruct Hl as [Hl|Hl].
           ++ apply Nat.eqb_eq in Hl. subst t. exists (o + n). rewrite Nat.eqb_refl.
              split; [|reflexivity]. exists x. rewrite <- Es. auto.
           ++ apply andb_true_iff in Hl. destruct Hl as [H1 H2]. apply negb_true_iff in H1.
              exists t. rewrite Nat.eqb_sym, H1. split; [|reflexivity]. exists x. rewrite <- Es. auto.
        -- exists t. destruct (Nat.eqb_spec t (o + n)); [congruence|]. split; [|reflexivity].
           exists x. rewrite <- Es. auto.
    + intros (t0 & (y & Hs & Hy & Hl) & ->). rewrite <- Es, Hx' in Hy. injection Hy as <-.
      exists (rp_state X (o + n) x). repeat split; auto. unfold rp_state. destruct l as [c|]; cbn.
      * destruct Hl as [Hc <-]. split; [exact Hc|].
        rewrite (f_next _ _ _ _ _ _ F x Hx) by (eapply chars_contains; eauto).
        rewrite Nat.eqb_refl. reflexivity.
      * destruct (Nat.eqb_spec t0 (o + n)) as [->|Hne].
        -- rewrite Hl, mem_ins, Nat.eqb_refl. reflexivity.
        -- destruct (mem (eps x) (o + n)); [|exact Hl]. rewrite mem_ins, mem_rem, Hl.
           destruct (Nat.eqb_spec (o + n) t0); [lia|]. cbn. apply orb_true_r.
  - split.
    + intros H. assert (He : edge o fr s l t) by exact H. exists t. split; [exact He|].
      destruct (Nat.eqb_spec t (o + n)) as [->|]; [|reflexivity].
      destruct HX as [Hlo|HX]; [|congruence].
      pose proof (f_lo _ _ _ _ _ _ F Hlo _ _ He). pose proof (edge_src _ _ _ _ _ He). lia.
    + intros (t0 & He & ->). destruct (Nat.eqb_spec t0 (o + n)) as [->|]; [|exact He].
      destruct HX as [Hlo|HX]; [|rewrite HX; exact He].
      pose proof (f_lo _ _ _ _ _ _ F Hlo _ _ He). pose proof (edge_src _ _ _ _ _ He). lia.
Qed.

Lemma init_all_split {A} p (pre : list A) x post :
  init_all p (pre ++ x :: post) = true -> post = [] \/ p x = true.
Proof.
  induction pre as [|y pre IH]; cbn [app].
  - destruct post; [auto|]. cbn. rewrite andb_true_iff. tauto.
  - intros H. apply IH. destruct (pre ++ x :: post) eqn:E; [reflexivity|].
    cbn in H. apply andb_true_iff in H. tauto.
Qed.

Lemma forallb_Forall {A} (p : A -> bool) l : forallb p l = true -> Forall (fun x => p x = true) l.
Proof. rewrite forallb_forall, Forall_forall. auto. Qed.

Lemma frag_of_split o its pre a fr post :
  laid o its -> its = pre ++ (a, fr) :: post -> frag_ok (o + W pre) fr a.
Proof. intros H ->. apply laid_app in H. destruct H as [_ [H _]]. exact H. Qed.

Lemma last_state_frs its : its <> [] -> Forall (fun t => 0 < width t) (map fst its) -> sized its ->
  exists pre a fr, its = pre ++ [(a, fr)] /\ last_state (frs its) = last_state fr.
Proof.
  intros Hne Hw Hs. destruct (exists_last Hne) as (pre & [a fr] & ->). exists pre, a, fr.
  split; [reflexivity|]. unfold frs. rewrite map_app, concat_app. cbn. rewrite app_nil_r.
  apply last_state_app. intros ->.
  apply Forall_app in Hs. destruct Hs as [_ Hs]. inversion Hs as [|? ? H1 _]; subst. cbn in H1.
  rewrite map_app in Hw. apply Forall_app in Hw. destruct Hw as [_ Hw]. inversion Hw; subst. cbn in *. lia.
Qed.

Lemma last_ce (l : list ast) a :
  (fix go (l : list ast) : bool :=
     match l with [] => false | [t] => char_ended t | _ :: l' => go l' end) (l ++ [a]) = char_ended a.
Proof.
  induction l as [|x l IH]; [reflexivity|]. cbn [app].
  destruct (l ++ [a]) eqn:E; [destruct l; discriminate|]. exact IH.
Qed.

Lemma nth_error_last {A} (l : list A) x y : nth_error (l ++ [x]) (length (l ++ [x]) - 1) = Some y -> y = x.
Proof.
  rewrite app_length. cbn. replace (length l + 1 - 1) with (length l) by lia.
  rewrite nth_error_app2 by lia. rewrite Nat.sub_diag. cbn. congruence.
Qed.

Lemma edge_whole k E its s l t : sized its ->
  (edge k (mkState E EMPTY 0 :: frs its) s l t <->
   (s = k /\ l = None /\ mem E t = true) \/
   exists pre a fr post, its = pre ++ (a, fr) :: post /\ edge (k + 1 + W pre) fr s l t).
Proof.
  intros Hs. change (mkState E EMPTY 0 :: frs its) with ([mkState E EMPTY 0] ++ frs its).
  rewrite edge_app, edge_one, edge_frs by exact Hs. cbn [length eps chars next].
  split; (intros [H|H]; [left|right; exact H]).
  - destruct H as [-> H]. destruct l as [c|]; [destruct H as [H _]; rewrite cs_contains_EMPTY in H; discriminate|auto].
  - destruct H as (-> & -> & H). auto.
Qed.

(** Two items that both contain [s] are the same item. *)
Lemma split_unique (its : list item) pre1 a1 f1 post1 pre2 a2 f2 post2 o s :
  its = pre1 ++ (a1, f1) :: post1 -> its = pre2 ++ (a2, f2) :: post2 ->
  o + W pre1 <= s < o + W pre1 + width a1 -> o + W pre2 <= s < o + W pre2 + width a2 ->
  pre1 = pre2 /\ a1 = a2 /\ f1 = f2 /\ post1 = post2.
Proof.
  intros -> H. revert o pre2 H. induction pre1 as [|[b g] pre1 IH]; intros o pre2 H H1 H2.
  - destruct pre2 as [|[b' g'] pre2]; cbn in H.
    + injection H as <- <- <-. auto.
    + injection H as <- <- ->. rewrite W_cons in H2. cbn in H1. lia.
  - destruct pre2 as [|[b' g'] pre2]; cbn in H.
    + injection H as <- <- <-. rewrite W_cons in H1. cbn in H2. lia.
    + injection H as <- <- H. rewrite W_cons in H1, H2.
      destruct (IH (o + width b) _ H) as (-> & -> & -> & ->); [lia|lia|auto].
Qed.

Lemma W_split pre a (fr : list state) post : W (pre ++ (a, fr) :: post) = W pre + width a + W post.
Proof. rewrite W_app, W_cons. lia. Qed.

Lemma alternatives_frag k E its l :
  map fst its = l -> laid (k + 1) its -> Forall (fun t => 0 < width t) l ->
  init_all last_only l = true ->
  (forall t, mem E t = true <-> In t (starts (k + 1) l)) ->
  frag_ok k (mkState E EMPTY 0 :: frs (rp_items (k + 1 + W its) (k + 1) its)) (Alternatives l).
Proof.
  intros Hl Hlaid Hw Hlo HE. set (X := k + 1 + W its).
  pose proof (laid_sized _ _ Hlaid) as Hs.
  pose proof (rp_items_sized X (k + 1) its Hs) as Hs'.
  assert (HwX : width (Alternatives l) = 1 + W its) by (cbn; unfold W, wsum; rewrite Hl; reflexivity).
  assert (HX : k + width (Alternatives l) = X) by (rewrite HwX; unfold X; lia).
  assert (HED : forall s lb t,
    edge k (mkState E EMPTY 0 :: frs (rp_items X (k + 1) its)) s lb t <->
    (s = k /\ lb = None /\ In t (starts (k + 1) l)) \/
    exists pre a fr post t0, its = pre ++ (a, fr) :: post /\ edge (k + 1 + W pre) fr s lb t0 /\
      t = if t0 =? k + 1 + W pre + width a then X else t0).
  { intros s lb t. rewrite edge_whole by exact Hs'. rewrite HE.
    split; (intros [H|H]; [left; exact H|right]).
    - destruct H as (pre & a & fr & post & Hsp & He).
      apply rp_items_split in Hsp. destruct Hsp as (pre' & fr' & post' & Hits & -> & -> & ->).
      assert (Wp : W (rp_items X (k + 1) pre') = W pre') by (unfold W; rewrite rp_items_fst; reflexivity).
      rewrite Wp in He.
      assert (Hwa : 0 < width a).
      { rewrite Forall_forall in Hw. apply Hw. rewrite <- Hl, Hits, map_app. apply in_or_app. right; left; reflexivity. }
      eapply edge_rp in He; [|eapply frag_of_split; eauto|exact Hwa|].
      + destruct He as (t0 & He & ->). exists pre', a, fr', post', t0. auto.
      + rewrite <- Hl, Hits, map_app in Hlo. cbn [map fst] in Hlo. apply init_all_split in Hlo.
        destruct Hlo as [Hp|Hlo]; [|left; exact Hlo]. right.
        apply map_eq_nil in Hp. unfold X. rewrite Hits, Hp, W_split. cbn. lia.
    - destruct H as (pre & a & fr & post & t0 & Hits & He & ->).
      exists (rp_items X (k + 1) pre), a, (rp X (k + 1 + W pre) fr), (rp_items X (k + 1 + W pre + width a) post).
      split; [apply rp_items_split; eauto 10|].
      assert (Wp : W (rp_items X (k + 1) pre) = W pre) by (unfold W; rewrite rp_items_fst; reflexivity).
      rewrite Wp.
      assert (Hwa : 0 < width a).
      { rewrite Forall_forall in Hw. apply Hw. rewrite <- Hl, Hits, map_app. apply in_or_app. right; left; reflexivity. }
      eapply edge_rp; [eapply frag_of_split; eauto|exact Hwa| |exists t0; auto].
      rewrite <- Hl, Hits, map_app in Hlo. cbn [map fst] in Hlo. apply init_all_split in Hlo.
        destruct Hlo as [Hp|Hlo]; [|left; exact Hlo]. right.
        apply map_eq_nil in Hp. unfold X. rewrite Hits, Hp, W_split. cbn. lia. }
  assert (Hstart : forall t, In t (starts (k + 1) l) -> k < t < X).
  { intros t Ht. rewrite <- Hl in Ht. apply in_starts in Ht. destruct Ht as (pre & a & fr & post & Hits & ->).
    assert (Hwa : 0 < width a).
    { rewrite Forall_forall in Hw. apply Hw. rewrite <- Hl, Hits, map_app. apply in_or_app. right; left; reflexivity. }
    unfold X. rewrite Hits, W_split. lia. }
  constructor.
  - cbn [length]. rewrite (frs_sized _ Hs'). unfold W. rewrite rp_items_fst. fold (W its). rewrite HwX. reflexivity.
  - intros s lb t H. apply HED in H. rewrite HX. destruct H as [(-> & -> & H)|(pre & a & fr & post & t0 & Hits & He & ->)].
    + apply Hstart in H. lia.
    + pose proof (f_tgt _ _ _ _ _ _ (frag_of_split _ _ _ _ _ _ Hlaid Hits) _ _ _ He).
      destruct (t0 =? k + 1 + W pre + width a); [unfold X; lia|].
      unfold X. rewrite Hits, W_split. lia.
  - intros x Hx Hc. rewrite HX. destruct its as [|it its'].
    + cbn in Hx. injection Hx as <-. cbn in Hc. congruence.
    + change (mkState E EMPTY 0 :: ?r) with ([mkState E EMPTY 0] ++ r) in Hx.
      remember (it :: its') as its eqn:Hits.
      assert (Hne : rp_items X (k + 1) its <> []) by (rewrite Hits; destruct it; discriminate).
      destruct (last_state_frs _ Hne) as (pre & a & fr & Hsp & Hlast); [rewrite rp_items_fst, Hl; exact Hw|exact Hs'|].
      rewrite last_state_app in Hx.
      2:{ intros Hn. rewrite Hn in Hlast. cbn in Hlast. symmetry in Hlast.
          destruct fr; [|destruct (last_state_some (s :: fr)) as [y Hy]; congruence].
          rewrite Hsp in Hs'. apply Forall_app in Hs'. destruct Hs' as [_ Hs']. apply Forall_inv in Hs'. rename Hs' into Hb.
          cbn in Hb. assert (In a l).
          { rewrite <- Hl, <- (rp_items_fst X (k + 1)), Hsp, map_app. apply in_or_app. right; left; reflexivity. }
          rewrite Forall_forall in Hw. apply Hw in H. lia. }
      rewrite Hlast in Hx. apply rp_items_split in Hsp. destruct Hsp as (pre' & fr' & post' & Hi & _ & -> & _).
      unfold rp in Hx. destruct (last_state fr') as [y|] eqn:Hy; [|congruence].
      unfold last_state in Hx. rewrite upd_length in Hx. rewrite nth_error_upd, Nat.eqb_refl in Hx.
      destruct (length fr' - 1 <? length fr'); [|discriminate]. injection Hx as <-. reflexivity.
  - cbn [last_only]. destruct l as [|a0 [|]]; try discriminate. intros Hlo0 s lb H. rewrite HX in *.
    apply HED in H. destruct H as [(-> & -> & H)|(pre & a & fr & post & t0 & Hits & He & Heq)].
    + apply Hstart in H. lia.
    + rewrite Hits, map_app in Hl. destruct pre as [|p pre]; [|destruct pre; discriminate].
      cbn in Hl. injection Hl as -> Hp. apply map_eq_nil in Hp. subst post.
      assert (HX0 : X = k + 1 + width a0) by (unfold X; rewrite Hits; cbn; unfold W, wsum; cbn; lia).
      pose proof (f_tgt _ _ _ _ _ _ (frag_of_split _ _ _ _ _ _ Hlaid Hits) _ _ _ He) as Ht.
      cbn [W map wsum list_sum fold_right] in *. rewrite Nat.add_0_r in *.
      assert (t0 = k + 1 + width a0) by (destruct (Nat.eqb_spec t0 (k + 1 + width a0)); lia). subst t0.
      rewrite HX0. pose proof (f_lo _ _ _ _ _ _ (frag_of_split _ _ _ _ _ _ Hlaid Hits) Hlo0 s lb) as Hfin.
      cbn in Hfin. rewrite Nat.add_0_r in Hfin. apply Hfin. exact He.
  - cbn [char_ended]. intros Hce. destruct its as [|it its'].
    + cbn in Hl. subst l. discriminate.
    + remember (it :: its') as its eqn:Hits.
      assert (Hne : its <> []) by (rewrite Hits; discriminate).
      destruct (exists_last Hne) as (pre & [a fr] & Hsp).
      rewrite <- Hl, Hsp, map_app in Hce. cbn [map fst] in Hce. rewrite last_ce in Hce.
      pose proof (frag_of_split _ _ _ _ _ _ Hlaid Hsp) as F.
      destruct (f_ce _ _ _ _ _ _ F Hce) as (x & Hx & Hcx).
      assert (Hfr : fr <> []) by (intros ->; discriminate).
      change (mkState E EMPTY 0 :: ?r) with ([mkState E EMPTY 0] ++ r).
      assert (Hrp : rp_items X (k + 1) its = rp_items X (k + 1) pre ++ (a, rp X (k + 1 + W pre) fr) :: []).
      { apply rp_items_split. exists pre, fr, []. auto. }
      rewrite Hrp. unfold frs. rewrite map_app, concat_app. cbn [map snd concat]. rewrite app_nil_r.
      assert (Hlr : length (rp X (k + 1 + W pre) fr) = length fr) by apply rp_length.
      assert (Hrne : rp X (k + 1 + W pre) fr <> []).
      { intros Hz. rewrite Hz in Hlr. destruct fr; [congruence|discriminate]. }
      rewrite last_state_app by (destruct (concat _); [exact Hrne|discriminate]).
      rewrite last_state_app by exact Hrne.
      unfold last_state. rewrite Hlr. unfold rp. rewrite Hx. rewrite nth_error_upd, Nat.eqb_refl.
      replace (length fr - 1 <? length fr) with true
        by (symmetry; apply Nat.ltb_lt; destruct fr; [congruence|cbn; lia]).
      eexists; split; [reflexivity|]. exact Hcx.
  - intros w. rewrite HX. split.
    + intros P.
      set (K := fun s w => (s = X /\ w = []) \/ (s = k /\ matches (Alternatives l) w) \/
         exists pre a fr post, its = pre ++ (a, fr) :: post /\ k + 1 + W pre <= s < k + 1 + W pre + width a /\
           path (edge (k + 1 + W pre) fr) s w (k + 1 + W pre + width a)).
      assert (HK : K k w).
      { apply (path_sound (edge k (mkState E EMPTY 0 :: frs (rp_items X (k + 1) its))) K X); [| |exact P].
        - intros s lb t v He Ht. apply HED in He.
          destruct He as [(-> & -> & Hin)|(pre & a & fr & post & t0 & Hits & He & ->)].
          + right; left. split; [reflexivity|]. pose proof (Hstart _ Hin) as Hr.
            destruct Ht as [[-> _]|[[-> _]|Ht]]; [lia|lia|].
            destruct Ht as (pre & a & fr & post & Hits & Hb & Hp).
            rewrite <- Hl in Hin. apply in_starts in Hin. destruct Hin as (pre2 & a2 & fr2 & post2 & Hits2 & ->).
            assert (Hwa : 0 < width a2).
            { rewrite Forall_forall in Hw. apply Hw. rewrite <- Hl, Hits2, map_app. apply in_or_app. right; left; reflexivity. }
            destruct (split_unique its _ _ _ _ _ _ _ _ (k + 1) (k + 1 + W pre2) Hits Hits2) as (-> & -> & -> & ->); [lia|lia|].
            cbn [matches]. exists (matches a2). split.
            * apply in_map. rewrite <- Hl, Hits2, map_app. apply in_or_app. right; left; reflexivity.
            * apply (f_lang _ _ _ _ _ _ (frag_of_split _ _ _ _ _ _ Hlaid Hits2)). exact Hp.
          + right; right. exists pre, a, fr, post. split; [exact Hits|].
            pose proof (frag_of_split _ _ _ _ _ _ Hlaid Hits) as F.
            pose proof (edge_src _ _ _ _ _ He) as Hsrc. rewrite (f_len _ _ _ _ _ _ F) in Hsrc.
            split; [exact Hsrc|]. pose proof (f_tgt _ _ _ _ _ _ F _ _ _ He) as Htgt.
            destruct (Nat.eqb_spec t0 (k + 1 + W pre + width a)) as [->|Hne].
            * assert (v = []).
              { destruct Ht as [[_ H]|[[H _]|(p2 & a2 & f2 & q2 & Hi2 & Hb & _)]]; [exact H|unfold X in H; lia|].
                exfalso. unfold X in Hb. rewrite Hi2, W_split in Hb. lia. }
              subst v. eapply path_step; [exact He|constructor].
            * eapply path_step; [exact He|].
              destruct Ht as [[H _]|[[H _]|(p2 & a2 & f2 & q2 & Hi2 & Hb & Hp)]].
              -- exfalso. unfold X in H. rewrite Hits, W_split in H. lia.
              -- lia.
              -- destruct (split_unique its _ _ _ _ _ _ _ _ (k + 1) t0 Hits Hi2) as (-> & -> & -> & ->); [lia|lia|exact Hp].
        - left; auto. }
      destruct HK as [[H _]|[[_ H]|(pre & a & fr & post & Hits & Hb & _)]]; [unfold X in H; lia|exact H|lia].
    + cbn [matches]. intros (L & HL & Hm). apply in_map_iff in HL. destruct HL as (a & <- & Ha).
      rewrite <- Hl in Ha. apply in_map_iff in Ha. destruct Ha as ([a' fr] & Heq & Hin). cbn in Heq. subst a'.
      apply in_split in Hin. destruct Hin as (pre & post & Hits).
      pose proof (frag_of_split _ _ _ _ _ _ Hlaid Hits) as F.
      apply (f_lang _ _ _ _ _ _ F) in Hm.
      eapply path_eps.
      { apply HED. left. split; [reflexivity|]. split; [reflexivity|]. rewrite <- Hl. apply in_starts. eauto 10. }
      assert (Hgen : forall s w, path (edge (k + 1 + W pre) fr) s w (k + 1 + W pre + width a) ->
        path (edge k (mkState E EMPTY 0 :: frs (rp_items X (k + 1) its))) (if s =? k + 1 + W pre + width a then X else s) w X).
      { clear Hm w. intros s w P. remember (k + 1 + W pre + width a) as e eqn:He. revert He.
        induction P as [s|s t w u Hst P IH|s c t w u Hst P IH]; intros ->.
        - rewrite Nat.eqb_refl. constructor.
        - pose proof (edge_src _ _ _ _ _ Hst) as Hsrc. rewrite (f_len _ _ _ _ _ _ F) in Hsrc.
          destruct (Nat.eqb_spec s (k + 1 + W pre + width a)); [lia|].
          eapply path_eps; [|apply IH; reflexivity]. apply HED. right. exists pre, a, fr, post, t. auto.
        - pose proof (edge_src _ _ _ _ _ Hst) as Hsrc. rewrite (f_len _ _ _ _ _ _ F) in Hsrc.
          destruct (Nat.eqb_spec s (k + 1 + W pre + width a)); [lia|].
          eapply path_chr; [|apply IH; reflexivity]. apply HED. right. exists pre, a, fr, post, t. auto. }
      apply Hgen in Hm.
      assert (Hwa : 0 < width a).
      { rewrite Forall_forall in Hw. apply Hw. rewrite <- Hl, Hits, map_app. apply in_or_app. right; left; reflexivity. }
      destruct (Nat.eqb_spec (k + 1 + W pre) (k + 1 + W pre + width a)); [lia|]. exact Hm.
Qed.

(** ** Substrings *)
Lemma in_ends o its x : In x (ends o (map fst its)) <->
  exists pre a fr post, its = pre ++ (a, fr) :: post /\ x = o + W pre + width a - 1.
Proof.
  revert o. induction its as [|[a fr] r IH]; intros o; cbn [map ends In fst].
  - split; [tauto|]. intros (pre & a & fr & post & H & _). destruct pre; discriminate.
  - rewrite IH. split.
    + intros [<-|(pre & a' & fr' & post & -> & ->)].
      * exists [], a, fr, r. rewrite Nat.add_0_r. auto.
      * exists ((a, fr) :: pre), a', fr', post. rewrite W_cons, Nat.add_assoc. auto.
    + intros (pre & a' & fr' & post & Heq & ->). destruct pre as [|[a'' fr''] pre].
      * left. injection Heq as <- <- <-. cbn. lia.
      * injection Heq as <- <- ->. right. exists pre, a', fr', post. rewrite W_cons, Nat.add_assoc. auto.
Qed.

Definition sup_state (X : nat) (x x' : state) : Prop :=
  chars x' = chars x /\ next x' = next x /\ (eps x' = eps x \/ eps x' = ins (eps x) X).
Definition sup (X : nat) (b b' : list state) : Prop := Forall2 (sup_state X) b b'.

Lemma Forall2_nth {A B} (R : A -> B -> Prop) a b i x : Forall2 R a b -> nth_error a i = Some x ->
  exists y, nth_error b i = Some y /\ R x y.
Proof.
  intros H. revert i. induction H; intros [|i] Hi; try discriminate.
  - injection Hi as <-. exists y. auto.
  - apply IHForall2. exact Hi.
Qed.
Lemma Forall2_nth_r {A B} (R : A -> B -> Prop) a b i y : Forall2 R a b -> nth_error b i = Some y ->
  exists x, nth_error a i = Some x /\ R x y.
Proof.
  intros H. revert i. induction H; intros [|i] Hi; try discriminate.
  - injection Hi as <-. exists x. auto.
  - apply IHForall2. exact Hi.
Qed.
Lemma Forall2_upd {A B} (R : A -> B -> Prop) a b i x y :
  Forall2 R a b -> nth_error a i = Some x -> R x y -> Forall2 R a (upd b i y).
Proof.
  intros H. revert i. induction H; intros [|i] Hi Hr; try discriminate; cbn.
  - injection Hi as ->. constructor; assumption.
  - constructor; [assumption|]. apply IHForall2; assumption.
Qed.
Lemma Forall2_len {A B} (R : A -> B -> Prop) a b : Forall2 R a b -> length a = length b.
Proof. induction 1; cbn; auto. Qed.

Lemma ins_idem e X : ins (ins e X) X = ins e X.
Proof. apply mem_ext. intros i. rewrite !mem_ins. destruct (X =? i), (mem e i); reflexivity. Qed.

Lemma sup_refl X b : sup X b b.
Proof. unfold sup. induction b; constructor; [split; auto|assumption]. Qed.

Lemma sup_insert X b0 b i x : sup X b0 b -> nth_error b i = Some x ->
  sup X b0 (upd b i (set_eps x (ins (eps x) X))).
Proof.
  intros H Hx. destruct (Forall2_nth_r _ _ _ _ _ H Hx) as (x0 & Hx0 & Hc & Hn & He).
  eapply Forall2_upd; [exact H|exact Hx0|]. unfold sup_state. cbn. split; [exact Hc|]. split; [exact Hn|].
  right. destruct He as [->| ->]; [reflexivity|apply ins_idem].
Qed.

Lemma edge_insert k b i X x s : nth_error b i = Some x ->
  (edge k (upd b i (set_eps x (ins (eps x) X))) s None X <-> edge k b s None X \/ s = k + i).
Proof.
  intros Hx. assert (Hi : i < length b) by (apply nth_error_Some; congruence).
  unfold edge. split.
  - intros (y & Hs & Hy & Hm). rewrite nth_error_upd in Hy. destruct (Nat.eqb_spec i (s - k)) as [He|He].
    + right. lia.
    + left. eauto.
  - intros [(y & Hs & Hy & Hm)| ->].
    + destruct (Nat.eqb_spec i (s - k)) as [He|He].
      * exists (set_eps x (ins (eps x) X)). split; [exact Hs|]. rewrite nth_error_upd, He, Nat.eqb_refl.
        replace (s - k <? length b) with true by (symmetry; apply Nat.ltb_lt; lia).
        split; [reflexivity|]. cbn. rewrite mem_ins, Nat.eqb_refl. reflexivity.
      * exists y. split; [exact Hs|]. rewrite nth_error_upd.
        destruct (Nat.eqb_spec i (s - k)); [contradiction|]. auto.
    + exists (set_eps x (ins (eps x) X)). split; [lia|]. rewrite nth_error_upd.
      replace (k + i - k) with i by lia. rewrite Nat.eqb_refl.
      replace (i <? length b) with true by (symmetry; apply Nat.ltb_lt; lia).
      split; [reflexivity|]. cbn. rewrite mem_ins, Nat.eqb_refl. reflexivity.
Qed.

Lemma insert_eps_app st b i j x : nth_error b i = Some x -> j < MAX_SET_SIZE ->
  insert_eps max_blocks (st ++ b) (length st + i) j = Ok (st ++ upd b i (set_eps x (ins (eps x) j))).
Proof.
  intros Hx Hj. unfold insert_eps.
  assert (index (st ++ b) (length st + i) = Ok x) as ->.
  { apply index_Ok. rewrite nth_error_app2 by lia. replace (length st + i - length st) with i by lia. exact Hx. }
  cbn [bind]. rewrite (chk_max _ Hj). cbn [bind]. rewrite upd_app_r by lia.
  replace (length st + i - length st) with i by lia. reflexivity.
Qed.

Definition exit_cond (X k : nat) (b0 : list state) (e s : nat) : Prop :=
  exists x, nth_error b0 (e - k) = Some x /\
    ((s = e /\ mem (eps x) (e + 1) = true) \/ (chars x <> EMPTY /\ next x <> X /\ s = next x)).

Lemma add_exit_loop st b0 es :
  let k := length st in let X := k + length b0 in X < MAX_SET_SIZE ->
  Forall (fun e => k <= e < X /\ forall x, nth_error b0 (e - k) = Some x -> chars x <> EMPTY -> next x = e + 1) es ->
  forall b, sup X b0 b ->
  exists b', foldM (add_exit X) es (st ++ b) = Ok (st ++ b') /\ sup X b0 b' /\
    forall s, edge k b' s None X <-> edge k b s None X \/ exists e, In e es /\ exit_cond X k b0 e s.
Proof.
  intros k X HX Hes. induction Hes as [|e es [He Hne] Hes IH]; intros b Hb.
  - exists b. split; [reflexivity|]. split; [exact Hb|]. intros s. split; [auto|].
    intros [H|(e & [] & _)]. exact H.
  - cbn [foldM].
    destruct (nth_error b0 (e - k)) as [x0|] eqn:Hx0; [|apply nth_error_None in Hx0; unfold X in *; lia].
    destruct (Forall2_nth _ _ _ _ _ Hb Hx0) as (x & Hx & Hc & Hn & Heps).
    assert (Hlb : length b = length b0) by (symmetry; eapply Forall2_len; exact Hb).
    assert (Hidx : index (st ++ b) e = Ok x).
    { apply index_Ok. rewrite nth_error_app2 by (unfold k in *; lia). exact Hx. }
    (* first conditional insertion *)
    assert (Hs1 : exists b1, (if mem (eps x) (e + 1) then insert_eps max_blocks (st ++ b) e X else Ok (st ++ b))
              = Ok (st ++ b1) /\ sup X b0 b1 /\
              forall s, edge k b1 s None X <-> edge k b s None X \/ (s = e /\ mem (eps x0) (e + 1) = true)).
    { destruct (mem (eps x) (e + 1)) eqn:Hm.
      - pose proof (insert_eps_app st b (e - k) X x Hx HX) as Hi.
        replace (length st + (e - k)) with e in Hi by (unfold k in *; lia). rewrite Hi. eexists. split; [reflexivity|].
        split; [apply sup_insert; assumption|]. intros s. rewrite (edge_insert k b (e - k) X x s Hx).
        replace (k + (e - k)) with e by lia. split.
        + intros [H| ->]; [auto|]. destruct Heps as [Heq|Heq].
          * right. split; [reflexivity|]. rewrite <- Heq. exact Hm.
          * rewrite Heq, mem_ins in Hm. apply orb_true_iff in Hm. destruct Hm as [Hm|Hm]; [|auto].
            apply Nat.eqb_eq in Hm. left. exists x. split; [lia|]. split; [exact Hx|].
            rewrite Heq, mem_ins, Nat.eqb_refl. reflexivity.
        + intros [H|[-> _]]; auto.
      - exists b. split; [reflexivity|]. split; [exact Hb|]. intros s. split; [auto|].
        intros [H|[-> Hm0]]; [exact H|]. exfalso.
        destruct Heps as [Heq|Heq]; rewrite Heq in Hm; [congruence|]. rewrite mem_ins, Hm0, orb_true_r in Hm. discriminate. }
    destruct Hs1 as (b1 & Hb1 & Hsup1 & Hed1).
    assert (Hlb1 : length b1 = length b0) by (symmetry; eapply Forall2_len; exact Hsup1).
    assert (Hs2 : exists b2, add_exit X (st ++ b) e = Ok (st ++ b2) /\ sup X b0 b2 /\
        forall s, edge k b2 s None X <-> edge k b1 s None X \/ (chars x0 <> EMPTY /\ next x0 <> X /\ s = next x0)).
    { unfold add_exit. rewrite Hidx. cbn [bind]. rewrite chk_max by lia. cbn [bind]. rewrite Hb1. cbn [bind].
      rewrite Hc, Hn. destruct (N.eqb_spec (chars x0) EMPTY) as [Hemp|Hnemp].
      - exists b1. split; [reflexivity|]. split; [exact Hsup1|]. intros s. tauto.
      - destruct (Nat.eqb_spec (next x0) X) as [HnX|HnX].
        + exists b1. split; [reflexivity|]. split; [exact Hsup1|]. intros s. tauto.
        + pose proof (Hne x0 eq_refl Hnemp) as Hnx.
          destruct (nth_error b1 (e + 1 - k)) as [y|] eqn:Hy; [|apply nth_error_None in Hy; unfold X in *; lia].
          rewrite Hnx in *. pose proof (insert_eps_app st b1 (e + 1 - k) X y Hy HX) as Hi.
          replace (length st + (e + 1 - k)) with (e + 1) in Hi by (unfold k in *; lia). rewrite Hi. eexists. split; [reflexivity|].
          split; [apply sup_insert; assumption|]. intros s. rewrite (edge_insert k b1 (e + 1 - k) X y s Hy).
          replace (k + (e + 1 - k)) with (e + 1) by lia. tauto. }
    destruct Hs2 as (b2 & Hb2 & Hsup2 & Hed2). rewrite Hb2. cbn [bind].
    destruct (IH b2 Hsup2) as (b' & Hb' & Hsup' & Hed'). exists b'. split; [exact Hb'|]. split; [exact Hsup'|].
    intros s. rewrite Hed', Hed2, Hed1. split.
    + intros [[[H|H]|H]|(e' & Hin & H)]; [left; exact H| | |].
      * right. exists e. split; [left; reflexivity|]. exists x0. auto.
      * right. exists e. split; [left; reflexivity|]. exists x0. auto.
      * right. exists e'. split; [right; exact Hin|exact H].
    + intros [H|(e' & [<-|Hin] & H)]; [auto| |].
      * destruct H as (y & Hy & H). rewrite Hx0 in Hy. injection Hy as <-. destruct H as [H|H]; auto.
      * right. exists e'. auto.
Qed.

Lemma sup_edge X k b b' s l t : sup X b b' -> edge k b' s l t -> edge k b s l t \/ (l = None /\ t = X).
Proof.
  intros H (y & Hs & Hy & Hl). destruct (Forall2_nth_r _ _ _ _ _ H Hy) as (x & Hx & Hc & Hn & He).
  destruct l as [c|].
  - left. exists x. rewrite <- Hc, <- Hn. auto.
  - destruct He as [He|He]; rewrite He in Hl.
    + left. exists x. auto.
    + rewrite mem_ins in Hl. apply orb_true_iff in Hl. destruct Hl as [Hl|Hl].
      * apply Nat.eqb_eq in Hl. auto.
      * left. exists x. auto.
Qed.
Lemma sup_edge' X k b b' s l t : sup X b b' -> edge k b s l t -> edge k b' s l t.
Proof.
  intros H (y & Hs & Hy & Hl). destruct (Forall2_nth _ _ _ _ _ H Hy) as (x & Hx & Hc & Hn & He).
  exists x. split; [exact Hs|]. split; [exact Hx|]. destruct l as [c|].
  - rewrite Hc, Hn. exact Hl.
  - destruct He as [He|He]; rewrite He; [exact Hl|]. rewrite mem_ins, Hl. apply orb_true_r.
Qed.
Lemma sup_last X b b' x' : sup X b b' -> last_state b' = Some x' ->
  exists x, last_state b = Some x /\ chars x' = chars x /\ next x' = next x.
Proof.
  intros H Hx. unfold last_state in *. rewrite <- (Forall2_len _ _ _ H) in Hx.
  destruct (Forall2_nth_r _ _ _ _ _ H Hx) as (x & Hx' & Hc & Hn & _). eauto.
Qed.
Lemma sup_last' X b b' x : sup X b b' -> last_state b = Some x ->
  exists x', last_state b' = Some x' /\ chars x' = chars x /\ next x' = next x.
Proof.
  intros H Hx. unfold last_state in *. rewrite <- (Forall2_len _ _ _ H).
  destruct (Forall2_nth _ _ _ _ _ H Hx) as (x' & Hx' & Hc & Hn & _). eauto.
Qed.

Lemma nth_frs_last y its pre a fr post : sized its -> its = pre ++ (a, fr) :: post -> 0 < width a ->
  nth_error (y :: frs its) (W pre + width a) = last_state fr.
Proof.
  intros Hs -> Hw. assert (Hpre : sized pre) by (apply Forall_app in Hs; tauto).
  assert (Hfr : length fr = width a).
  { apply Forall_app in Hs. destruct Hs as [_ Hs]. apply Forall_inv in Hs. exact Hs. }
  replace (W pre + width a) with (S (W pre + (width a - 1))) by lia. cbn [nth_error].
  unfold frs. rewrite map_app, concat_app. cbn [map concat snd].
  change (concat (map snd pre)) with (frs pre).
  rewrite nth_error_app2 by (rewrite (frs_sized _ Hpre); lia). rewrite (frs_sized _ Hpre).
  rewrite nth_error_app1 by lia. unfold last_state. f_equal. lia.
Qed.

Lemma map_eq_app3 {A B} (f : A -> B) l x y z : map f l = x ++ y ++ z ->
  exists a b c, l = a ++ b ++ c /\ map f a = x /\ map f b = y /\ map f c = z.
Proof.
  intros H. apply map_eq_app in H. destruct H as (a & r & -> & Ha & Hr).
  apply map_eq_app in Hr. destruct Hr as (b & c & -> & Hb & Hc). eauto 10.
Qed.

Lemma char_ended_witness (its : list item) :
  init_all (fun t => negb (char_ended t)) (map fst its) = false ->
  exists pre a fr post, its = pre ++ (a, fr) :: post /\ post <> [] /\ char_ended a = true.
Proof.
  induction its as [|[a fr] r IH]; [discriminate|].
  destruct r as [|it r]; [discriminate|]. cbn [map fst]. cbn [init_all].
  intros H. apply andb_false_iff in H. destruct H as [H|H].
  - apply negb_false_iff in H. exists [], a, fr, (it :: r). repeat split; [discriminate|exact H].
  - destruct (IH H) as (pre & a' & fr' & post & Heq & Hp & Hc).
    exists ((a, fr) :: pre), a', fr', post. rewrite Heq. auto.
Qed.

Lemma substring_frag k E its l b' :
  let b0 := mkState E EMPTY 0 :: frs its in let X := k + 1 + W its in
  map fst its = l -> laid (k + 1) its -> Forall (fun t => 0 < width t) l ->
  init_all last_only l = true -> init_all (fun t => negb (char_ended t)) l = false ->
  (forall t, mem E t = true <-> In t (starts (k + 1) l)) ->
  sup X b0 b' ->
  (forall s, edge k b' s None X <-> edge k b0 s None X \/ exists e, In e (ends (k + 1) l) /\ exit_cond X k b0 e s) ->
  frag_ok k b' (Substring l).
Proof.
  intros b0 X Hl Hlaid Hw Hlo Hce HE Hsup Hex.
  pose proof (laid_sized _ _ Hlaid) as Hs.
  assert (HwX : width (Substring l) = 1 + W its) by (cbn; unfold W, wsum; rewrite Hl; reflexivity).
  assert (HX : k + width (Substring l) = X) by (rewrite HwX; unfold X; lia).
  assert (Hwa : forall pre a fr post, its = pre ++ (a, fr) :: post -> 0 < width a).
  { intros pre a fr post Hits. rewrite Forall_forall in Hw. apply Hw. rewrite <- Hl, Hits, map_app.
    apply in_or_app. right; left; reflexivity. }
  assert (Hlast : forall pre a fr post, its = pre ++ (a, fr) :: post -> post <> [] -> last_only a = true).
  { intros pre a fr post Hits Hp. rewrite <- Hl, Hits, map_app in Hlo. cbn [map fst] in Hlo.
    apply init_all_split in Hlo. destruct Hlo as [H|H]; [|exact H]. apply map_eq_nil in H. contradiction. }
  assert (Hend : forall pre a fr post, its = pre ++ (a, fr) :: post ->
    nth_error b0 (k + 1 + W pre + width a - 1 - k) = last_state fr).
  { intros pre a fr post Hits. replace (k + 1 + W pre + width a - 1 - k) with (W pre + width a) by lia.
    eapply nth_frs_last; eauto. }
  assert (HED : forall s lb t, edge k b' s lb t <->
    (s = k /\ lb = None /\ In t (starts (k + 1) l)) \/
    (exists pre a fr post, its = pre ++ (a, fr) :: post /\ edge (k + 1 + W pre) fr s lb t) \/
    (lb = None /\ t = X /\ exists pre a fr post, its = pre ++ (a, fr) :: post /\ post <> [] /\
       ((s = k + 1 + W pre + width a - 1 /\ edge (k + 1 + W pre) fr s None (k + 1 + W pre + width a)) \/
        ((exists x, last_state fr = Some x /\ chars x <> EMPTY) /\ s = k + 1 + W pre + width a)))).
  { assert (Hb0 : forall s lb t, edge k b0 s lb t <->
      (s = k /\ lb = None /\ In t (starts (k + 1) l)) \/
      (exists pre a fr post, its = pre ++ (a, fr) :: post /\ edge (k + 1 + W pre) fr s lb t)).
    { intros. unfold b0. rewrite edge_whole by exact Hs. rewrite HE. reflexivity. }
    intros s lb t. split.
    - intros He. destruct (sup_edge _ _ _ _ _ _ _ Hsup He) as [He'|[-> ->]].
      + apply Hb0 in He'. tauto.
      + apply Hex in He. destruct He as [He|(e & Hin & Hc)]; [apply Hb0 in He; tauto|].
        rewrite <- Hl in Hin. apply in_ends in Hin. destruct Hin as (pre & a & fr & post & Hits & ->).
        pose proof (Hwa _ _ _ _ Hits) as Hwa'. pose proof (frag_of_split _ _ _ _ _ _ Hlaid Hits) as F.
        destruct Hc as (x & Hx & Hc). rewrite (Hend _ _ _ _ Hits) in Hx.
        replace (k + 1 + W pre + width a - 1 + 1) with (k + 1 + W pre + width a) in Hc by lia.
        destruct Hc as [[-> Hm]|(Hcx & Hnx & ->)].
        * assert (Hedge : edge (k + 1 + W pre) fr (k + 1 + W pre + width a - 1) None (k + 1 + W pre + width a)).
          { exists x. split; [lia|]. split; [|exact Hm]. unfold last_state in Hx.
            rewrite (f_len _ _ _ _ _ _ F) in Hx. rewrite <- Hx. f_equal. lia. }
          destruct post as [|it post].
          -- right; left. exists pre, a, fr, []. split; [exact Hits|].
             replace X with (k + 1 + W pre + width a); [exact Hedge|]. unfold X. rewrite Hits, W_split. cbn. lia.
          -- right; right. split; [reflexivity|]. split; [reflexivity|]. exists pre, a, fr, (it :: post).
             split; [exact Hits|]. split; [discriminate|]. left. auto.
        * pose proof (f_next _ _ _ _ _ _ F x Hx Hcx) as Hn. rewrite Hn in *.
          right; right. split; [reflexivity|]. split; [reflexivity|]. exists pre, a, fr, post.
          split; [exact Hits|]. split.
          -- intros ->. apply Hnx. unfold X. rewrite Hits, W_split. cbn. lia.
          -- right. split; [eauto|reflexivity].
    - intros [H|[H|(-> & -> & pre & a & fr & post & Hits & Hp & H)]].
      + apply (sup_edge' _ _ _ _ _ _ _ Hsup). apply Hb0. tauto.
      + apply (sup_edge' _ _ _ _ _ _ _ Hsup). apply Hb0. tauto.
      + apply Hex. right. exists (k + 1 + W pre + width a - 1). split.
        { rewrite <- Hl. apply in_ends. eauto 10. }
        pose proof (Hwa _ _ _ _ Hits) as Hwa'. pose proof (frag_of_split _ _ _ _ _ _ Hlaid Hits) as F.
        unfold exit_cond. rewrite (Hend _ _ _ _ Hits).
        replace (k + 1 + W pre + width a - 1 + 1) with (k + 1 + W pre + width a) by lia.
        destruct H as [[-> He]|[(x & Hx & Hc) ->]].
        * destruct He as (x & Hsx & Hx & Hm). exists x. split; [|left; auto].
          unfold last_state. rewrite (f_len _ _ _ _ _ _ F). rewrite <- Hx. f_equal. lia.
        * exists x. split; [exact Hx|]. right. split; [exact Hc|].
          rewrite (f_next _ _ _ _ _ _ F x Hx Hc). split; [|reflexivity].
          destruct post as [|[a2 f2] post]; [congruence|]. unfold X. rewrite Hits, W_split, W_cons.
          assert (0 < width a2); [|lia]. apply (Hwa (pre ++ [(a, fr)]) a2 f2 post).
          rewrite <- app_assoc. exact Hits. }
  assert (Hstart : forall t, In t (starts (k + 1) l) -> k < t < X).
  { intros t Ht. rewrite <- Hl in Ht. apply in_starts in Ht. destruct Ht as (pre & a & fr & post & Hits & ->).
    pose proof (Hwa _ _ _ _ Hits). unfold X. rewrite Hits, W_split. lia. }
  assert (Hits0 : its <> []) by (intros H; rewrite H in Hl; cbn in Hl; subst l; discriminate).
  assert (Hlb : last_state b0 = last_state (frs its)).
  { unfold b0. change (mkState E EMPTY 0 :: frs its) with ([mkState E EMPTY 0] ++ frs its).
    apply last_state_app. intros Hn. destruct (exists_last Hits0) as (pre & [a fr] & Hsp).
    pose proof (Hwa _ _ _ _ Hsp). pose proof (frs_sized _ Hs) as Hfs. rewrite Hn, Hsp, W_split in Hfs. cbn in Hfs. lia. }
  constructor.
  - rewrite <- (Forall2_len _ _ _ Hsup). unfold b0. cbn [length]. rewrite (frs_sized _ Hs), HwX. reflexivity.
  - intros s lb t H. apply HED in H. rewrite HX.
    destruct H as [(-> & -> & H)|[(pre & a & fr & post & Hits & He)|(-> & -> & pre & a & fr & post & Hits & Hp & He)]].
    + apply Hstart in H. lia.
    + pose proof (f_tgt _ _ _ _ _ _ (frag_of_split _ _ _ _ _ _ Hlaid Hits) _ _ _ He).
      unfold X. rewrite Hits, W_split. lia.
    + unfold X. lia.
  - intros x' Hx' Hc. rewrite HX. destruct (sup_last _ _ _ _ Hsup Hx') as (x & Hx & Hcx & Hnx).
    rewrite Hnx. rewrite Hcx in Hc. rewrite Hlb in Hx.
    destruct (last_state_frs its Hits0) as (pre & a & fr & Hsp & Hls); [rewrite Hl; exact Hw|exact Hs|].
    rewrite Hls in Hx. rewrite (f_next _ _ _ _ _ _ (frag_of_split _ _ _ _ _ _ Hlaid Hsp) x Hx Hc).
    unfold X. rewrite Hsp, W_split. cbn. lia.
  - cbn [last_only]. destruct l as [|a0 [|]]; try discriminate.
  - cbn [char_ended]. intros Hce'. destruct (exists_last Hits0) as (pre & [a fr] & Hsp).
    rewrite <- Hl, Hsp, map_app in Hce'. cbn [map fst] in Hce'. rewrite last_ce in Hce'.
    pose proof (frag_of_split _ _ _ _ _ _ Hlaid Hsp) as F.
    destruct (f_ce _ _ _ _ _ _ F Hce') as (x & Hx & Hcx).
    assert (Hxb : last_state b0 = Some x).
    { rewrite Hlb. destruct (last_state_frs its Hits0) as (pre2 & a2 & fr2 & Hsp2 & Hls); [rewrite Hl; exact Hw|exact Hs|].
      rewrite Hls. rewrite Hsp in Hsp2. apply app_inj_tail in Hsp2. destruct Hsp2 as [_ Heq]. injection Heq as <- <-. exact Hx. }
    destruct (sup_last' _ _ _ _ Hsup Hxb) as (x' & Hx' & Hc' & _). exists x'. split; [exact Hx'|congruence].
  - intros w. rewrite HX. split.
    + intros P.
      set (K := fun s w => (s = X /\ w = []) \/ (s = k /\ matches (Substring l) w) \/
         (exists pre a fr post, its = pre ++ (a, fr) :: post /\ k + 1 + W pre <= s < k + 1 + W pre + width a /\
           exists u v mid rest, w = u ++ v /\ path (edge (k + 1 + W pre) fr) s u (k + 1 + W pre + width a) /\
             post = mid ++ rest /\ cats (map matches (map fst mid)) v) \/
         (exists pre a fr post, its = pre ++ (a, fr) :: post /\ s = k + 1 + W pre /\ w = [])).
      assert (HK : K k w).
      { apply (path_sound (edge k b') K X); [| |exact P].
        - intros s lb t v He Ht. apply HED in He.
          destruct He as [(-> & -> & Hin)|[(pre & a & fr & post & Hits & He)|(-> & -> & pre & a & fr & post & Hits & Hp & He)]].
          + right; left. split; [reflexivity|]. pose proof (Hstart _ Hin) as Hr. cbn [matches].
            destruct Ht as [[-> _]|[[-> _]|[Ht|Ht]]]; [lia|lia| |].
            * destruct Ht as (pre & a & fr & post & Hits & Hb & u & v' & mid & rest & Heq & Hp & Hpost & Hcats).
              rewrite <- Hl in Hin. apply in_starts in Hin. destruct Hin as (pre2 & a2 & fr2 & post2 & Hits2 & Ht2).
              pose proof (Hwa _ _ _ _ Hits2) as Hwa'.
              destruct (split_unique its _ _ _ _ _ _ _ _ (k + 1) t Hits Hits2) as (-> & -> & -> & ->); [lia|lia|].
              exists (map matches (map fst pre2)), (map matches (map fst ((a2, fr2) :: mid))), (map matches (map fst rest)).
              split.
              -- rewrite <- Hl, Hits2, Hpost, <- !map_app. reflexivity.
              -- cbn [map fst cats fold_right]. cbn [lab]. exists u, v'. split; [exact Heq|]. split; [|exact Hcats].
                 apply (f_lang _ _ _ _ _ _ (frag_of_split _ _ _ _ _ _ Hlaid Hits2)). rewrite <- Ht2 in *. exact Hp.
            * destruct Ht as (pre & a & fr & post & Hits & _ & ->).
              exists [], [], (map matches l). split; reflexivity.
          + right; right; left. exists pre, a, fr, post. split; [exact Hits|].
            pose proof (frag_of_split _ _ _ _ _ _ Hlaid Hits) as F.
            pose proof (edge_src _ _ _ _ _ He) as Hsrc. rewrite (f_len _ _ _ _ _ _ F) in Hsrc.
            split; [exact Hsrc|]. pose proof (f_tgt _ _ _ _ _ _ F _ _ _ He) as Htgt.
            destruct (Nat.eq_dec t (k + 1 + W pre + width a)) as [Hte|Hne].
            * (* leaving the item: the continuation is a prefix run of [post] *)
              assert (Hrun : exists mid rest, post = mid ++ rest /\ cats (map matches (map fst mid)) v).
              { destruct Ht as [[_ ->]|[[H _]|[Ht|Ht]]].
                - exists [], post. split; reflexivity.
                - lia.
                - destruct Ht as (pre2 & a2 & fr2 & post2 & Hits2 & Hb & u & v' & mid & rest & -> & Hp & Hpost & Hcats).
                  destruct post as [|[a3 f3] post].
                  { exfalso. pose proof Hits2 as HW. apply (f_equal W) in HW. rewrite Hits, !W_split in HW. cbn in HW. lia. }
                  assert (Hits3 : its = (pre ++ [(a, fr)]) ++ (a3, f3) :: post) by (rewrite <- app_assoc; exact Hits).
                  pose proof (Hwa _ _ _ _ Hits3) as Hw3.
                  assert (HW3 : W (pre ++ [(a, fr)]) = W pre + width a) by (rewrite W_app; unfold W, wsum; cbn; lia).
                  destruct (split_unique its _ _ _ _ _ _ _ _ (k + 1) t Hits3 Hits2) as (<- & <- & <- & <-); [lia|lia|].
                  exists ((a3, f3) :: mid), rest. split; [rewrite Hpost; reflexivity|].
                  cbn [map fst cats fold_right]. exists u, v'. split; [reflexivity|]. split; [|exact Hcats].
                  apply (f_lang _ _ _ _ _ _ (frag_of_split _ _ _ _ _ _ Hlaid Hits3)).
                  rewrite HW3 in *. replace t with (k + 1 + (W pre + width a)) in Hp by lia. exact Hp.
                - destruct Ht as (pre2 & a2 & fr2 & post2 & Hits2 & _ & ->). exists [], post. split; reflexivity. }
              destruct Hrun as (mid & rest & Hpost & Hcats).
              exists (lab lb []), v, mid, rest. split; [destruct lb; reflexivity|].
              split; [|auto]. eapply path_step; [exact He|]. rewrite Hte. constructor.
            * destruct Ht as [[-> _]|[[H _]|[Ht|Ht]]].
              -- exfalso. apply Hne. unfold X in *. rewrite Hits, W_split in *. lia.
              -- lia.
              -- destruct Ht as (pre2 & a2 & fr2 & post2 & Hits2 & Hb & u & v' & mid & rest & -> & Hp & Hpost & Hcats).
                 destruct (split_unique its _ _ _ _ _ _ _ _ (k + 1) t Hits Hits2) as (<- & <- & <- & <-); [lia|lia|].
                 exists (lab lb u), v', mid, rest. split; [destruct lb; reflexivity|].
                 split; [|auto]. eapply path_step; eauto.
              -- exfalso. destruct Ht as (pre2 & a2 & fr2 & post2 & Hits2 & Ht2 & _).
                 pose proof (Hwa _ _ _ _ Hits2).
                 destruct (split_unique its _ _ _ _ _ _ _ _ (k + 1) t Hits Hits2) as (<- & _); lia.
          + assert (v = []).
            { destruct Ht as [[_ H]|[[H _]|[(p2 & a2 & f2 & q2 & Hi2 & Hb & _)|(p2 & a2 & f2 & q2 & Hi2 & Hb & H)]]].
              - exact H.
              - unfold X in H; lia.
              - exfalso. unfold X in Hb. rewrite Hi2, W_split in Hb. lia.
              - exact H. }
            subst v. destruct He as [[Hse He]|[_ Hse]].
            * right; right; left. exists pre, a, fr, post. split; [exact Hits|].
              pose proof (Hwa _ _ _ _ Hits). split; [lia|].
              exists [], [], [], post. split; [reflexivity|]. split; [|split; reflexivity].
              eapply path_eps; [exact He|constructor].
            * right; right; right. destruct post as [|[a3 f3] post]; [congruence|].
              exists (pre ++ [(a, fr)]), a3, f3, post. split; [rewrite <- app_assoc; exact Hits|].
              rewrite W_app. unfold W at 2, wsum. cbn. split; [lia|reflexivity].
        - left; auto. }
      destruct HK as [[H _]|[[_ H]|[(pre & a & fr & post & Hits & Hb & _)|(pre & a & fr & post & Hits & Hb & _)]]];
        [unfold X in H; lia|exact H|lia|lia].
    + cbn [matches]. intros (pl & rl & ql & Hsp & Hcats). rewrite <- Hl, map_map in Hsp.
      apply map_eq_app3 in Hsp. destruct Hsp as (ipre & irun & ipost & Hits & _ & Hrun & _).
      assert (HP : forall irun ipre w, irun <> [] -> its = ipre ++ irun ++ ipost ->
        cats (map (fun x => matches (fst x)) irun) w -> path (edge k b') (k + 1 + W ipre) w X).
      { clear Hits Hrun Hcats ipre irun w. induction irun as [|[a fr] irun IH]; [congruence|].
        intros ipre w _ Hits Hc. cbn [map fst cats fold_right] in Hc. destruct Hc as (u & v & -> & Hu & Hv).
        pose proof (frag_of_split _ _ _ _ _ _ Hlaid Hits) as F.
        assert (Hmono : forall s w t, path (edge (k + 1 + W ipre) fr) s w t -> path (edge k b') s w t).
        { intros s w t. apply path_mono. intros s' l' t' Hst. apply HED. right; left. eauto 10. }
        apply (f_lang _ _ _ _ _ _ F) in Hu.
        destruct irun as [|it irun].
        - cbn in Hv. unfold empty_string in Hv. subst v. rewrite app_nil_r.
          destruct ipost as [|it ipost].
          + replace X with (k + 1 + W ipre + width a); [apply Hmono; exact Hu|].
            unfold X. cbn [app] in Hits; rewrite Hits, W_split. cbn. lia.
          + apply path_last in Hu. pose proof (Hwa _ _ _ _ Hits) as Hwa'.
            destruct Hu as [[Hu _]|(s' & lb & w' & P' & He & ->)]; [lia|].
            pose proof (f_lo _ _ _ _ _ _ F (Hlast _ _ _ _ Hits ltac:(discriminate)) _ _ He) as Hs'.
            apply path_app with (t := s'); [apply Hmono; exact P'|].
            destruct lb as [c|].
            * cbn [lab]. eapply path_chr; [apply HED; right; left; exists ipre, a, fr, (it :: ipost); split; [exact Hits|exact He]|].
              eapply path_eps; [|constructor]. apply HED. right; right. split; [reflexivity|]. split; [reflexivity|].
              exists ipre, a, fr, (it :: ipost). split; [exact Hits|]. split; [discriminate|]. right. split; [|reflexivity].
              destruct He as (x & Hsx & Hx & Hcx & _). exists x. split; [|eapply chars_contains; eauto].
              unfold last_state. rewrite (f_len _ _ _ _ _ _ F), <- Hx. f_equal. lia.
            * cbn [lab]. eapply path_eps; [|constructor]. apply HED. right; right. split; [reflexivity|]. split; [reflexivity|].
              exists ipre, a, fr, (it :: ipost). split; [exact Hits|]. split; [discriminate|]. left. split; [lia|exact He].
        - apply path_app with (t := k + 1 + W ipre + width a); [apply Hmono; exact Hu|].
          specialize (IH (ipre ++ [(a, fr)]) v ltac:(discriminate)).
          rewrite W_app in IH. unfold W at 2, wsum in IH. cbn in IH.
          replace (k + 1 + (W ipre + (width a + 0))) with (k + 1 + W ipre + width a) in IH by lia.
          apply IH; [rewrite <- app_assoc; exact Hits|exact Hv]. }
      destruct irun as [|it irun].
      * cbn in Hrun. subst rl. cbn in Hcats. unfold empty_string in Hcats. subst w.
        rewrite <- Hl in Hce. destruct (char_ended_witness _ Hce) as (pre & a & fr & post & Hi & Hp & Hca).
        destruct post as [|[a3 f3] post]; [congruence|].
        eapply path_eps with (t := k + 1 + W pre + width a).
        -- apply HED. left. split; [reflexivity|]. split; [reflexivity|]. rewrite <- Hl. apply in_starts.
           exists (pre ++ [(a, fr)]), a3, f3, post. split; [rewrite <- app_assoc; exact Hi|].
           rewrite W_app. unfold W at 3, wsum. cbn. lia.
        -- eapply path_eps; [|constructor]. apply HED. right; right. split; [reflexivity|]. split; [reflexivity|].
           exists pre, a, fr, ((a3, f3) :: post). split; [exact Hi|]. split; [discriminate|]. right.
           split; [|reflexivity]. apply (f_ce _ _ _ _ _ _ (frag_of_split _ _ _ _ _ _ Hlaid Hi) Hca).
      * eapply path_eps with (t := k + 1 + W ipre).
        -- apply HED. left. split; [reflexivity|]. split; [reflexivity|]. rewrite <- Hl. apply in_starts.
           destruct it as [a fr]. exists ipre, a, fr, (irun ++ ipost). split; [exact Hits|reflexivity].
        -- apply (HP (it :: irun)); [discriminate|exact Hits|rewrite Hrun; exact Hcats].
Qed.

(** ** Repetitions *)
Lemma W_repeat its t n : map fst its = repeat t n -> W its = n * width t.
Proof.
  intros H. unfold W. rewrite H. clear H. unfold wsum. induction n as [|n IH]; [reflexivity|].
  cbn [repeat map list_sum fold_right] in *. change (fold_right Init.Nat.add 0) with list_sum in *. rewrite IH. lia.
Qed.
Lemma repeat_snoc {A} (x : A) n : repeat x (S n) = repeat x n ++ [x].
Proof. induction n; [reflexivity|]. cbn [repeat app] in *. rewrite <- IHn. reflexivity. Qed.

Lemma repeat_loop ovf t mn mx : builds ovf t ->
  let m := match mx with Some m => m | None => mn end in mn <= m ->
  forall c j st E its ft,
  map fst its = repeat t j -> laid (length st + 1) its ->
  length st + 1 + (j + c) * width t < MAX_SET_SIZE ->
  exists its' E',
    foldM (repeat_step ovf (build_states ovf) (length st) t mn mx) (seq j c)
      (st ++ mkState E EMPTY 0 :: frs its, ft)
    = Ok (st ++ mkState E' EMPTY 0 :: frs its',
          if c =? 0 then ft else length st + 1 + (j + c - 1) * width t)
    /\ map fst its' = repeat t (j + c) /\ laid (length st + 1) its'
    /\ forall x, mem E' x = true <-> mem E x = true \/
         exists i, j <= i < j + c /\ i <= m - mn /\ x = length st + 1 + i * width t.
Proof.
  intros HB m Hm c. induction c as [|c IH]; intros j st E its ft Hf Hlaid Hlen.
  - exists its, E. cbn. rewrite Nat.add_0_r. repeat split; auto.
    intros [H|(i & H & _)]; [exact H|lia].
  - cbn [seq foldM]. unfold repeat_step at 1. unfold copy_entry. fold m.
    replace (mn <=? m) with true by (symmetry; apply Nat.leb_le; exact Hm). cbn [bind].
    pose proof (W_repeat _ _ _ Hf) as HW. pose proof (frs_len _ _ Hlaid) as Hfl.
    assert (Hl : length (st ++ mkState E EMPTY 0 :: frs its) = length st + 1 + j * width t)
      by (rewrite app_length; cbn [length]; lia).
    assert (Hs1 : exists E1, (if j <=? m - mn
        then insert_eps max_blocks (st ++ mkState E EMPTY 0 :: frs its) (length st)
               (length (st ++ mkState E EMPTY 0 :: frs its))
        else Ok (st ++ mkState E EMPTY 0 :: frs its)) = Ok (st ++ mkState E1 EMPTY 0 :: frs its) /\
        forall x, mem E1 x = true <-> mem E x = true \/ (j <= m - mn /\ x = length st + 1 + j * width t)).
    { destruct (Nat.leb_spec j (m - mn)).
      - rewrite insert_mid by (rewrite Hl; lia). unfold set_eps; cbn [eps chars next]. eexists. split; [reflexivity|].
        intros x. rewrite mem_ins, Hl, orb_true_iff, Nat.eqb_eq. intuition.
      - exists E. split; [reflexivity|]. intros x. split; [auto|]. intros [Hx|[Hx _]]; [exact Hx|lia]. }
    destruct Hs1 as (E1 & HE1 & HmE1). rewrite HE1. cbn [bind].
    destruct (HB (st ++ mkState E1 EMPTY 0 :: frs its)) as (fr & Hfr & F).
    { rewrite app_length. cbn [length]. lia. }
    assert (Hl1 : length (st ++ mkState E1 EMPTY 0 :: frs its) = length st + 1 + j * width t)
      by (rewrite app_length; cbn [length]; lia).
    rewrite Hfr. cbn [bind]. rewrite Hl1 in *. rewrite <- app_assoc. cbn [app].
    assert (Hits : frs its ++ fr = frs (its ++ [(t, fr)])).
    { unfold frs. rewrite map_app, concat_app. cbn. rewrite app_nil_r. reflexivity. }
    rewrite Hits.
    destruct (IH (S j) st E1 (its ++ [(t, fr)]) (length st + 1 + j * width t)) as (its' & E' & Hfo & Hf' & Hl' & HE').
    + rewrite map_app, Hf. cbn [map fst]. symmetry. apply repeat_snoc.
    + apply laid_app. split; [exact Hlaid|]. rewrite HW. cbn. split; [exact F|exact I].
    + replace (S j + c) with (j + S c) by lia. exact Hlen.
    + exists its', E'. split; [|split; [|split; [exact Hl'|]]].
      * rewrite Hfo. f_equal. f_equal. replace (S j + c - 1) with (j + c) by lia.
        replace (j + S c - 1) with (j + c) by lia. destruct c; [|reflexivity]. cbn [Nat.eqb].
        f_equal. f_equal. lia.
      * rewrite Hf'. f_equal. lia.
      * intros x. rewrite HE', HmE1. split.
        -- intros [[H|[H1 H2]]|(i & Hi & H2 & H3)]; [auto| |].
           ++ right. exists j. repeat split; auto; lia.
           ++ right. exists i. repeat split; auto; lia.
        -- intros [H|(i & Hi & H2 & H3)]; [auto|]. destruct (Nat.eq_dec i j) as [->|].
           ++ left; right. auto.
           ++ right. exists i. repeat split; auto; lia.
Qed.

Lemma repetition_frag k t mn mx its E F' r :
  let m := match mx with Some m => m | None => mn end in
  let w := width t in let f := k + 1 + r * w in
  mn <= m -> r = Nat.max 1 (Nat.max mn m) -> mx <> Some 0 ->
  map fst its = repeat t r -> laid (k + 1) its ->
  (forall x, mem E x = true <-> (exists i, i < r /\ i <= m - mn /\ x = k + 1 + i * w) \/ (mn = 0 /\ x = f)) ->
  (forall x, mem F' x = true <-> x = f + 1 \/ (mx = None /\ x = k + 1 + (r - 1) * w)) ->
  frag k (2 + r * w) true false (matches (Repetition t mn mx))
    (mkState E EMPTY 0 :: frs its ++ [mkState F' EMPTY 0]).
Proof.
  intros m w f Hm Hr Hmx Hf Hlaid HE HF.
  pose proof (laid_sized _ _ Hlaid) as Hs. pose proof (frs_len _ _ Hlaid) as Hfl.
  pose proof (W_repeat _ _ _ Hf) as HW. fold w in HW.
  assert (Hr1 : 1 <= r) by lia.
  assert (Hlen : length its = r).
  { rewrite <- (map_length fst), Hf. apply repeat_length. }
  assert (Hspl : forall pre a fr post, its = pre ++ (a, fr) :: post ->
     a = t /\ W pre = length pre * w /\ length pre < r /\ frag_ok (k + 1 + length pre * w) fr t).
  { intros pre a fr post Hi. pose proof Hi as Hi'. apply (f_equal (map fst)) in Hi'. rewrite Hf, map_app in Hi'. cbn [map fst] in Hi'.
    assert (Hat : a = t).
    { apply (repeat_spec r t). rewrite Hi'. apply in_or_app. right; left; reflexivity. }
    assert (HWp : W pre = length pre * w).
    { apply W_repeat. clear - Hi'. revert r Hi'. induction pre as [|p pre IH]; intros r Hi'; [reflexivity|].
      destruct r as [|r]; [discriminate|]. cbn in Hi' |- *. injection Hi' as <- Hi'. f_equal. eapply IH; eauto. }
    split; [exact Hat|]. split; [exact HWp|]. split.
    - rewrite <- Hlen, Hi, app_length. cbn. lia.
    - rewrite <- HWp, <- Hat. eapply frag_of_split; eauto. }
  assert (Hget : forall i, i < r -> exists pre fr post, its = pre ++ (t, fr) :: post /\ length pre = i).
  { intros i Hi. rewrite <- Hlen in Hi. destruct (nth_error its i) as [[a fr]|] eqn:Hn.
    - apply nth_error_split in Hn. destruct Hn as (pre & post & Hit & Hl). exists pre, fr, post.
      destruct (Hspl _ _ _ _ Hit) as [-> _]. auto.
    - apply nth_error_None in Hn. lia. }
  assert (HED : forall s lb x, edge k (mkState E EMPTY 0 :: frs its ++ [mkState F' EMPTY 0]) s lb x <->
     (s = k /\ lb = None /\ ((exists i, i < r /\ i <= m - mn /\ x = k + 1 + i * w) \/ (mn = 0 /\ x = f))) \/
     (exists pre fr post, its = pre ++ (t, fr) :: post /\ edge (k + 1 + length pre * w) fr s lb x) \/
     (s = f /\ lb = None /\ (x = f + 1 \/ (mx = None /\ x = k + 1 + (r - 1) * w)))).
  { intros s lb x.
    change (mkState E EMPTY 0 :: frs its ++ [mkState F' EMPTY 0])
      with ((mkState E EMPTY 0 :: frs its) ++ [mkState F' EMPTY 0]).
    rewrite edge_app, edge_whole by exact Hs. rewrite edge_one. cbn [length eps chars next].
    replace (k + S (length (frs its))) with f by (unfold f; lia). rewrite HE. split.
    - intros [[H|(pre & a & fr & post & Hi & He)]|[-> H]].
      + left; exact H.
      + right; left. destruct (Hspl _ _ _ _ Hi) as (-> & HWp & _ & _). rewrite HWp in He. eauto 10.
      + right; right. destruct lb as [c|]; [destruct H as [H _]; rewrite cs_contains_EMPTY in H; discriminate|].
        apply HF in H. auto.
    - intros [H|[(pre & fr & post & Hi & He)|(-> & -> & H)]].
      + left; left; exact H.
      + left; right. destruct (Hspl _ _ _ _ Hi) as (_ & HWp & _ & _). exists pre, t, fr, post. rewrite HWp. auto.
      + right. split; [reflexivity|]. apply HF. exact H. }
  assert (Hlast : last_state (mkState E EMPTY 0 :: frs its ++ [mkState F' EMPTY 0]) = Some (mkState F' EMPTY 0)).
  { change (mkState E EMPTY 0 :: frs its ++ [mkState F' EMPTY 0])
      with ((mkState E EMPTY 0 :: frs its) ++ [mkState F' EMPTY 0]).
    rewrite last_state_app by discriminate. reflexivity. }
  assert (HX : k + (2 + r * w) = f + 1) by (unfold f; lia).
  constructor.
  - cbn [length]. rewrite app_length, Hfl, HW. cbn. lia.
  - intros s lb x He. apply HED in He. rewrite HX.
    destruct He as [(-> & _ & [(i & Hi & _ & ->)|(_ & ->)])|[(pre & fr & post & Hi & He)|(-> & _ & [->|(_ & ->)])]];
      unfold f; try nia.
    destruct (Hspl _ _ _ _ Hi) as (_ & _ & Hp & F).
    pose proof (f_tgt _ _ _ _ _ _ F _ _ _ He) as Htg. fold w in Htg. nia.
  - intros x Hx Hc. rewrite Hlast in Hx. injection Hx as <-. cbn in Hc. congruence.
  - intros _ s lb He. apply HED in He. rewrite HX in *.
    destruct He as [(-> & _ & [(i & Hi & _ & He)|(_ & He)])|[(pre & fr & post & Hi & He)|(-> & _ & [_|(_ & He)])]];
      unfold f in *; try nia.
    destruct (Hspl _ _ _ _ Hi) as (_ & _ & Hp & F).
    pose proof (f_tgt _ _ _ _ _ _ F _ _ _ He) as Htg. fold w in Htg. nia.
  - discriminate.
  - intros v. rewrite HX. set (L := matches t).
    assert (Hw0 : w = 0 -> forall u, L u <-> u = []).
    { intros Hw0 u. destruct (Hget 0) as (pre & fr & post & Hi & Hp); [lia|].
      destruct (Hspl _ _ _ _ Hi) as (_ & _ & _ & F). pose proof (f_len _ _ _ _ _ _ F) as Hlf.
      unfold L. rewrite <- (f_lang _ _ _ _ _ _ F). fold w in Hlf |- *. rewrite Hw0 in Hlf |- *.
      destruct fr; [|discriminate]. rewrite !Nat.add_0_r. split; intros H.
      - apply path_stuck in H; [tauto|]. intros l x. apply edge_nil.
      - subst. constructor. }
    set (T := fun j v => exists n, power L n v /\ match mx with None => j <= n | Some _ => n = j end).
    assert (Hnil : L [] -> forall n, power L n []).
    { intros H n. induction n; [reflexivity|]. exists [], []. auto. }
    assert (HTS : forall j u v, L u -> T j v -> T (S j) (u ++ v)).
    { intros j u v' Hu (n & Hn & Hc). exists (S n). split; [exists u, v'; auto|]. destruct mx; lia. }
    split.
    + intros P.
      set (K := fun s v => (s = f + 1 /\ v = []) \/ (s = f /\ T 0 v) \/
         (s = k /\ matches (Repetition t mn mx) v) \/
         (exists pre fr post, its = pre ++ (t, fr) :: post /\
            k + 1 + length pre * w <= s < k + 1 + length pre * w + w /\
            exists u u', v = u ++ u' /\ path (edge (k + 1 + length pre * w) fr) s u (k + 1 + length pre * w + w)
                         /\ T (r - 1 - length pre) u')).
      assert (Kst : forall i v, i <= r -> K (k + 1 + i * w) v -> T (r - i) v).
      { intros i u Hi [[H ->]|[[H H']|[[H _]|(pre & fr & post & Hits & Hb & u1 & u2 & -> & Hp & HT)]]].
        - unfold f in H. nia.
        - destruct (Nat.eq_dec w 0) as [Hz|Hz].
          + destruct H' as (n & Hn & _).
            assert (Hun : u = []).
            { clear - Hn Hw0 Hz. revert u Hn. induction n; intros u Hn; [exact Hn|].
              destruct Hn as (a & b & -> & Ha & Hb). apply Hw0 in Ha; [|exact Hz]. subst a. apply IHn. exact Hb. }
            subst u. exists (r - i). split; [|destruct mx; lia]. apply Hnil. apply Hw0; auto.
          + assert (i = r) by (unfold f in H; nia). subst i. rewrite Nat.sub_diag. exact H'.
        - nia.
        - destruct (Hspl _ _ _ _ Hits) as (_ & _ & Hpr & F).
          assert (i = length pre) by nia. subst i.
          replace (r - length pre) with (S (r - 1 - length pre)) by lia. apply HTS; [|exact HT].
          apply (f_lang _ _ _ _ _ _ F). exact Hp. }
      assert (HK : K k v).
      { apply (path_sound (edge k (mkState E EMPTY 0 :: frs its ++ [mkState F' EMPTY 0])) K (f + 1)); [| |exact P].
        - intros s lb x u He Hx. apply HED in He.
          destruct He as [(-> & -> & [(i & Hi & Hd & ->)|(H0 & ->)])|[(pre & fr & post & Hits & He)|(-> & -> & [->|(Hn & ->)])]].
          + right; right; left. split; [reflexivity|]. apply Kst in Hx; [|lia]. destruct Hx as (n & Hn & Hc).
            cbn [matches]. exists n. split; [|split; [|exact Hn]].
            * destruct mx; unfold m in *; lia.
            * intros m' ->. unfold m in *. subst n. assert (m' <> 0) by congruence. lia.
          + right; right; left. split; [reflexivity|].
            assert (HT : T 0 u).
            { pose proof (Kst r u (Nat.le_refl r)) as Hk. rewrite Nat.sub_diag in Hk. apply Hk. exact Hx. }
            destruct HT as (n & Hn & Hc). cbn [matches]. exists n. split; [lia|]. split; [|exact Hn].
            intros m' ->. lia.
          + right; right; right. exists pre, fr, post. split; [exact Hits|].
            destruct (Hspl _ _ _ _ Hits) as (_ & _ & Hpr & F). fold w in F.
            pose proof (edge_src _ _ _ _ _ He) as Hsrc. rewrite (f_len _ _ _ _ _ _ F) in Hsrc. fold w in Hsrc.
            split; [exact Hsrc|]. pose proof (f_tgt _ _ _ _ _ _ F _ _ _ He) as Htgt. fold w in Htgt.
            destruct (Nat.eq_dec x (k + 1 + length pre * w + w)) as [Hxe|Hxe].
            * exists (lab lb []), u. split; [destruct lb; reflexivity|]. split.
              -- eapply path_step; [exact He|]. rewrite Hxe. constructor.
              -- replace (r - 1 - length pre) with (r - S (length pre)) by lia. apply Kst; [lia|].
                 replace (k + 1 + S (length pre) * w) with x by (cbn; lia). exact Hx.
            * destruct Hx as [[H ->]|[[H H']|[[H _]|(pre2 & fr2 & post2 & Hits2 & Hb & u1 & u2 & -> & Hp & HT)]]].
              -- unfold f in H. nia.
              -- unfold f in H. nia.
              -- lia.
              -- destruct (Hspl _ _ _ _ Hits) as (_ & HW1 & _ & _). destruct (Hspl _ _ _ _ Hits2) as (_ & HW2 & _ & _).
                 destruct (split_unique its _ _ _ _ _ _ _ _ (k + 1) x Hits Hits2) as (<- & _ & <- & <-); fold w; [lia|lia|].
                 exists (lab lb u1), u2. split; [destruct lb; reflexivity|]. split; [|exact HT].
                 eapply path_step; eauto.
          + right; left. split; [reflexivity|]. cbn [lab].
            destruct Hx as [[_ ->]|[[H H']|[[H _]|(pre2 & fr2 & post2 & Hits2 & Hb & _)]]].
            * exists 0. split; [reflexivity|]. destruct mx; lia.
            * lia.
            * unfold f in H. lia.
            * exfalso. destruct (Hspl _ _ _ _ Hits2) as (_ & _ & Hpr & _). unfold f in Hb. nia.
          + right; left. split; [reflexivity|]. cbn [lab]. apply Kst in Hx; [|lia].
            destruct Hx as (n & Hn' & Hc). exists n. split; [exact Hn'|]. rewrite Hn in *. lia.
        - left; auto. }
      destruct HK as [[H _]|[[H _]|[[_ H]|(pre & fr & post & Hits & Hb & _)]]]; [unfold f in H; lia|unfold f in H; lia|exact H|lia].
    + cbn [matches]. fold L. intros (n & Hmn & Hmax & Hp).
      set (G := edge k (mkState E EMPTY 0 :: frs its ++ [mkState F' EMPTY 0])) in *.
      assert (Hcopy : forall i u, i < r -> L u -> path G (k + 1 + i * w) u (k + 1 + S i * w)).
      { intros i u Hi Hu. destruct (Hget i Hi) as (pre & fr & post & Hits & Hl).
        destruct (Hspl _ _ _ _ Hits) as (_ & _ & _ & F). apply (f_lang _ _ _ _ _ _ F) in Hu. rewrite Hl in *.
        replace (k + 1 + S i * w) with (k + 1 + i * w + width t) by (unfold w; cbn; lia).
        eapply path_mono; [|exact Hu]. intros s l x Hst. apply HED. right; left. exists pre, fr, post. rewrite Hl. auto. }
      assert (Hchain : forall c u, c <= r -> power L c u -> path G (k + 1 + (r - c) * w) u f).
      { induction c as [|c IHc]; intros u Hc Hu.
        - cbn in Hu. unfold empty_string in Hu. subst u. rewrite Nat.sub_0_r. constructor.
        - destruct Hu as (a & b & -> & Ha & Hb). eapply path_app; [apply Hcopy; [lia|exact Ha]|].
          replace (S (r - S c)) with (r - c) by lia. apply IHc; [lia|exact Hb]. }
      assert (Hfin : path G f [] (f + 1)).
      { eapply path_eps with (t := f + 1); [apply HED; right; right; auto|apply path_nil]. }
      assert (Hdone : path G k v f); [|rewrite <- (app_nil_r v); eapply path_app; eauto].
      destruct (Nat.eq_dec n 0) as [->|Hn0].
      * cbn in Hp. unfold empty_string in Hp. subst v. eapply path_eps; [|constructor].
        apply HED. left. split; [reflexivity|]. split; [reflexivity|]. right. split; [lia|reflexivity].
      * destruct mx as [m'|].
        -- specialize (Hmax m' eq_refl). unfold m in *. assert (r = m') by (assert (m' <> 0) by congruence; lia).
           eapply path_eps with (t := k + 1 + (r - n) * w); [|apply Hchain; [lia|exact Hp]].
           apply HED. left. split; [reflexivity|]. split; [reflexivity|]. left. exists (r - n). split; [lia|]. split; [lia|reflexivity].
        -- unfold m in *. assert (Hrn : r <= n) by lia.
           replace n with (r + (n - r)) in Hp by lia. apply power_add in Hp. destruct Hp as (a & b & -> & Ha & Hb).
           apply path_app with (t := f).
           ++ eapply path_eps with (t := k + 1 + (r - r) * w); [|apply Hchain; [lia|exact Ha]].
              apply HED. left. split; [reflexivity|]. split; [reflexivity|]. left. exists 0. split; [lia|]. split; [lia|]. rewrite Nat.sub_diag. reflexivity.
           ++ clear Ha Hn0 Hmax Hmn. revert b Hb. induction (n - r) as [|q IHq]; intros b Hb.
              ** cbn in Hb. unfold empty_string in Hb. subst b. constructor.
              ** destruct Hb as (a1 & b1 & -> & Ha & Hb). apply path_app with (t := f); [|apply IHq; exact Hb].
                 eapply path_eps with (t := k + 1 + (r - 1) * w).
                 --- apply HED. right; right. auto.
                 --- pose proof (Hcopy (r - 1) a1 ltac:(lia) Ha) as Hc. replace (S (r - 1)) with r in Hc by lia. exact Hc.
Qed.

(** ** The main lemma *)
Lemma seq_loop ovf l : Forall (builds ovf) l ->
  forall st fr n lo ce L,
  frag (length st) n lo ce L fr -> length st + n + wsum l < MAX_SET_SIZE ->
  exists fr', foldM (fun st t => build_states ovf t st) l (st ++ fr) = Ok (st ++ fr') /\
    frag (length st) (n + wsum l)
      ((fix go (l : list ast) (acc : bool) : bool :=
         match l with [] => acc | t :: l' => go l' (if width t =? 0 then acc else last_only t) end) l lo)
      ((fix go (l : list ast) (acc : bool) : bool :=
         match l with [] => acc | t :: l' => go l' (if width t =? 0 then acc else char_ended t) end) l ce)
      (cat L (cats (map matches l))) fr'.
Proof.
  induction 1 as [|t l Ht Hl IH]; intros st fr n lo ce L F Hlen.
  - exists fr. cbn. rewrite Nat.add_0_r. split; [reflexivity|].
    eapply frag_leq; [|exact F]. apply leq_sym, cat_empty_r.
  - assert (Hws : wsum (t :: l) = width t + wsum l) by reflexivity. rewrite Hws in *.
    destruct (Ht (st ++ fr)) as (fr1 & Hfr1 & F1).
    { rewrite app_length, (f_len _ _ _ _ _ _ F). lia. }
    cbn [foldM]. rewrite Hfr1. cbn [bind]. rewrite app_length, (f_len _ _ _ _ _ _ F) in F1.
    destruct (IH st (fr ++ fr1) (n + width t) _ _ _ (frag_app _ _ _ _ _ _ _ _ _ _ _ F F1)) as (fr' & Hfr' & F'); [lia|].
    exists fr'. rewrite <- app_assoc. split; [exact Hfr'|].
    rewrite Nat.add_assoc. eapply frag_leq; [|exact F']. apply cat_assoc.
Qed.

Lemma build_ok ovf a : well_formed a = true -> builds ovf a.
Proof.
  induction a as [cs|l IH|l IH|l IH|t mn mx IH|kd bk] using ast_ind'; intros Hwf st Hlen.
  - exists [new_transition cs (length st + 1)]. split; [reflexivity|].
    constructor.
    + reflexivity.
    + intros s lb x He. apply edge_one in He. cbn [width]. destruct lb.
      * destruct He as (_ & _ & <-). cbn. lia.
      * destruct He as [_ He]. change (mem 0 x = true) in He. rewrite mem_0 in He. discriminate.
    + cbn. intros x Hx _. injection Hx as <-. reflexivity.
    + intros _ s lb He. apply edge_one in He. cbn [width]. lia.
    + cbn. intros Hc. eexists; split; [reflexivity|]. cbn. apply negb_true_iff, N.eqb_neq in Hc. exact Hc.
    + intros w. cbn [width matches]. split.
      * intros P. set (K := fun s w => (s = length st + 1 /\ w = []) \/
          (s = length st /\ exists c, w = [c] /\ cs_contains cs c = true)).
        assert (HK : K (length st) w).
        { apply (path_sound (edge (length st) [new_transition cs (length st + 1)]) K (length st + 1)); [| |exact P].
          - intros s lb x v He Hx. apply edge_one in He. destruct He as [-> He]. destruct lb as [c|].
            + destruct He as [Hc <-]. cbn in Hx. cbn in Hc. destruct Hx as [[_ ->]|[Hx _]]; [|lia].
              right. split; [reflexivity|]. exists c. auto.
            + change (mem 0 x = true) in He. rewrite mem_0 in He. discriminate.
          - left; auto. }
        destruct HK as [[H _]|[_ H]]; [lia|exact H].
      * intros (c & -> & Hc). eapply path_chr; [|constructor]. apply edge_one. cbn. auto.
  - cbn in Hwf. rewrite !andb_true_iff in Hwf. destruct Hwf as [[H1 H2] H3].
    assert (HB : Forall (builds ovf) l).
    { apply forallb_Forall in H1. rewrite Forall_forall in *. intros x Hx. apply IH; auto. }
    assert (HW : Forall (fun t => 0 < width t) l).
    { apply forallb_Forall in H2. rewrite Forall_forall in *. intros x Hx. apply Nat.ltb_lt. apply H2. exact Hx. }
    assert (Hwd : width (Alternatives l) = 1 + wsum l) by reflexivity. rewrite Hwd in Hlen.
    destruct (branch_loop ovf l HB HW st 0 [] []) as (its & E & Hf & Hm & Hla & HE); [cbn; lia|].
    cbn [length app] in *. rewrite Nat.add_0_r in *.
    pose proof (frs_len _ _ Hla) as Hfl.
    assert (HWi : W its = wsum l) by (unfold W; rewrite Hm; reflexivity).
    cbn [build_states]. change (st ++ [state_new]) with (st ++ mkState 0 EMPTY 0 :: []).
    rewrite Hf. cbn [bind].
    assert (Hlen1 : length (st ++ mkState E EMPTY 0 :: frs its) = length st + 1 + W its)
      by (rewrite app_length; cbn [length]; lia).
    rewrite Hlen1.
    pose proof (repoint_loop (length st + 1 + W its) its ltac:(lia) ltac:(rewrite Hm; exact HW)
      (st ++ [mkState E EMPTY 0]) (laid_sized _ _ Hla)) as Hrp.
    rewrite app_length in Hrp. cbn [length] in Hrp. rewrite Hm in Hrp. rewrite <- !app_assoc in Hrp. cbn [app] in Hrp.
    exists (mkState E EMPTY 0 :: frs (rp_items (length st + 1 + W its) (length st + 1) its)).
    split; [apply Hrp; lia|].
    apply alternatives_frag; auto. intros t. rewrite HE, mem_0. intuition. discriminate.
  - cbn [well_formed] in Hwf. 
    assert (HB : Forall (builds ovf) l).
    { apply forallb_Forall in Hwf. rewrite Forall_forall in *. intros x Hx. apply IH; auto. }
    destruct (seq_loop ovf l HB st [] 0 true false empty_string (frag_nil _)) as (fr & Hf & F).
    { change (wsum l) with (width (Sequence l)). lia. }
    rewrite app_nil_r in Hf. exists fr. split; [exact Hf|].
    cbn [Nat.add] in F. eapply frag_leq in F; [exact F|]. apply cat_empty_l.
  - cbn in Hwf. rewrite !andb_true_iff in Hwf. destruct Hwf as [[[H1 H2] H3] H4]. apply negb_true_iff in H4.
    assert (HB : Forall (builds ovf) l).
    { apply forallb_Forall in H1. rewrite Forall_forall in *. intros x Hx. apply IH; auto. }
    assert (HW : Forall (fun t => 0 < width t) l).
    { apply forallb_Forall in H2. rewrite Forall_forall in *. intros x Hx. apply Nat.ltb_lt. apply H2. exact Hx. }
    assert (Hwd : width (Substring l) = 1 + wsum l) by reflexivity. rewrite Hwd in Hlen.
    destruct (branch_loop ovf l HB HW st 0 [] []) as (its & E & Hf & Hm & Hla & HE); [cbn; lia|].
    cbn [length app] in *. rewrite Nat.add_0_r in *.
    pose proof (frs_len _ _ Hla) as Hfl. pose proof (laid_sized _ _ Hla) as Hsz.
    assert (HWi : W its = wsum l) by (unfold W; rewrite Hm; reflexivity).
    cbn [build_states]. change (st ++ [state_new]) with (st ++ mkState 0 EMPTY 0 :: []).
    rewrite Hf. cbn [bind].
    set (b0 := mkState E EMPTY 0 :: frs its).
    assert (Hb0 : length b0 = 1 + W its) by (unfold b0; cbn [length]; lia).
    rewrite app_length.
    destruct (add_exit_loop st b0 (ends (length st + 1) l)) with (b := b0) as (b' & Hb' & Hsup & Hex).
    + lia.
    + apply Forall_forall. intros e He. rewrite <- Hm in He. apply in_ends in He.
      destruct He as (pre & a & fr & post & Hits & ->).
      assert (Hwa : 0 < width a).
      { rewrite Forall_forall in HW. apply HW. rewrite <- Hm, Hits, map_app. apply in_or_app. right; left; reflexivity. }
      split.
      * rewrite Hb0, Hits, W_split. lia.
      * intros x Hx Hc. replace (length st + 1 + W pre + width a - 1 - length st) with (W pre + width a) in Hx by lia.
        unfold b0 in Hx. rewrite (nth_frs_last _ its pre a fr post Hsz Hits Hwa) in Hx.
        rewrite (f_next _ _ _ _ _ _ (frag_of_split _ _ _ _ _ _ Hla Hits) x Hx Hc). lia.
    + apply sup_refl.
    + exists b'. split; [exact Hb'|]. rewrite Hb0 in *.
      replace (length st + (1 + W its)) with (length st + 1 + W its) in * by lia.
      eapply substring_frag with (its := its) (E := E); auto.
      intros t. rewrite HE, mem_0. intuition. discriminate.
  - cbn [well_formed] in Hwf. rewrite andb_true_iff in Hwf. destruct Hwf as [H1 H2].
    specialize (IH H1).
    assert (Hmm : mn <= match mx with Some m => m | None => mn end).
    { destruct mx; [apply Nat.leb_le; exact H2|lia]. }
    assert (Hcase : (mn = 0 /\ mx = Some 0) \/ (mn = 1 /\ mx = Some 1) \/
      (mx <> Some 0 /\ ~ (mn = 1 /\ mx = Some 1))).
    { destruct mx as [[|[|m]]|]; destruct mn as [|[|mn]]; try lia; auto; right; right; split; intuition congruence. }
    destruct Hcase as [[-> ->]|[[-> ->]|[Hn0 Hn1]]].
    + exists []. rewrite app_nil_r. split; [reflexivity|]. unfold frag_ok. cbn [width last_only char_ended].
      eapply frag_leq; [|apply frag_nil]. intros w. cbn. split.
      * intros ->. exists 0. repeat split; auto. intros; lia.
      * intros (n & _ & Hn & Hp). specialize (Hn 0 eq_refl). assert (n = 0) by lia. subst n. exact Hp.
    + destruct (IH st) as (fr & Hf & F); [exact Hlen|]. exists fr. split; [exact Hf|].
      unfold frag_ok in *. cbn [width last_only char_ended]. eapply frag_leq; [|exact F].
      intros w. cbn. split.
      * intros Hw. exists 1. split; [lia|]. split; [intros m Hm; injection Hm as <-; lia|].
        cbn. exists w, []. rewrite app_nil_r. repeat split; auto.
      * intros (n & Hn1 & Hn & Hp). specialize (Hn 1 eq_refl). assert (n = 1) by lia. subst n.
        destruct Hp as (u & v & -> & Hu & ->). rewrite app_nil_r. exact Hu.
    + set (m := match mx with Some m => m | None => mn end) in *.
      set (r := Nat.max 1 (Nat.max mn m)).
      assert (Hw : width (Repetition t mn mx) = 2 + r * width t).
      { cbn [width]. fold m. fold r. destruct mn as [|[|mn]]; destruct mx as [[|[|]]|]; try reflexivity; exfalso; intuition congruence. }
      assert (Hlo : last_only (Repetition t mn mx) = true).
      { cbn [last_only]. destruct mn as [|[|mn]]; destruct mx as [[|[|]]|]; try reflexivity; exfalso; intuition congruence. }
      assert (Hce : char_ended (Repetition t mn mx) = false).
      { cbn [char_ended]. destruct mn as [|[|mn]]; destruct mx as [[|[|]]|]; try reflexivity; exfalso; intuition congruence. }
      rewrite Hw in Hlen.
      destruct (repeat_loop ovf t mn mx IH Hmm r 0 st 0%N (@nil item) 0) as (its & E & Hf & Hm & Hla & HE);
        [reflexivity|exact I|cbn [Nat.add]; lia|].
      cbn [Nat.add] in Hf, Hm, HE.
      pose proof (W_repeat _ _ _ Hm) as HWi. pose proof (frs_len _ _ Hla) as Hfl.
      assert (Hr1 : 1 <= r) by lia.
      assert (Hb : build_states ovf (Repetition t mn mx) st =
        (do (st1, final_term_index) <-
            foldM (repeat_step ovf (build_states ovf) (length st) t mn mx) (seq 0 r)
              (st ++ [state_new], 0);
          let final_index := length st1 in
          do st2 <- insert_eps max_blocks (st1 ++ [state_new]) final_index (final_index + 1);
          do st3 <- (if mn =? 0 then insert_eps max_blocks st2 (length st) final_index else Ok st2);
          match mx with
          | None => insert_eps max_blocks st3 final_index final_term_index
          | Some _ => Ok st3
          end)).
      { cbn [build_states]. destruct mn as [|[|mn]]; destruct mx as [[|[|]]|]; try reflexivity; exfalso; intuition congruence. }
      rewrite Hb. clear Hb. change (st ++ [state_new]) with (st ++ mkState 0 EMPTY 0 :: frs []).
      rewrite Hf. cbn [bind].
      replace (r =? 0) with false by (symmetry; apply Nat.eqb_neq; lia).
      set (f := length st + 1 + r * width t).
      assert (Hlf : length (st ++ mkState E EMPTY 0 :: frs its) = f)
        by (rewrite app_length; cbn [length]; unfold f; lia).
      rewrite Hlf.
      assert (Hi1 : insert_eps max_blocks ((st ++ mkState E EMPTY 0 :: frs its) ++ [state_new]) f (f + 1)
        = Ok ((st ++ mkState E EMPTY 0 :: frs its) ++ [mkState (ins 0 (f + 1)) EMPTY 0])).
      { rewrite <- Hlf at 1. rewrite insert_mid by (unfold f; lia). reflexivity. }
      rewrite Hi1. cbn [bind]. rewrite <- app_assoc. cbn [app].
      set (E2 := if mn =? 0 then ins E f else E).
      assert (Hi2 : (if mn =? 0
         then insert_eps max_blocks (st ++ mkState E EMPTY 0 :: frs its ++ [mkState (ins 0 (f + 1)) EMPTY 0]) (length st) f
         else Ok (st ++ mkState E EMPTY 0 :: frs its ++ [mkState (ins 0 (f + 1)) EMPTY 0]))
        = Ok (st ++ mkState E2 EMPTY 0 :: frs its ++ [mkState (ins 0 (f + 1)) EMPTY 0])).
      { unfold E2. destruct (mn =? 0); [|reflexivity]. rewrite insert_mid by (unfold f; lia). reflexivity. }
      rewrite Hi2. cbn [bind].
      set (F2 := match mx with None => ins (ins 0 (f + 1)) (length st + 1 + (r - 1) * width t) | Some _ => ins 0 (f + 1) end).
      assert (Hi3 : match mx with
         | None => insert_eps max_blocks (st ++ mkState E2 EMPTY 0 :: frs its ++ [mkState (ins 0 (f + 1)) EMPTY 0]) f
                     (length st + 1 + (r - 1) * width t)
         | Some _ => Ok (st ++ mkState E2 EMPTY 0 :: frs its ++ [mkState (ins 0 (f + 1)) EMPTY 0])
         end = Ok (st ++ mkState E2 EMPTY 0 :: frs its ++ [mkState F2 EMPTY 0])).
      { unfold F2. destruct mx as [|]; [reflexivity|].
        assert (Hl2 : length (st ++ mkState E2 EMPTY 0 :: frs its) = f)
          by (rewrite app_length; cbn [length]; unfold f; lia).
        change (st ++ mkState E2 EMPTY 0 :: frs its ++ ?x) with (st ++ (mkState E2 EMPTY 0 :: frs its) ++ x).
        rewrite app_assoc.
        pose proof (insert_mid (st ++ mkState E2 EMPTY 0 :: frs its) (mkState (ins 0 (f + 1)) EMPTY 0) []
          (length st + 1 + (r - 1) * width t) ltac:(nia)) as Hi.
        rewrite Hl2 in Hi. rewrite Hi. rewrite <- app_assoc. reflexivity. }
      exists (mkState E2 EMPTY 0 :: frs its ++ [mkState F2 EMPTY 0]).
      split; [exact Hi3|].
      unfold frag_ok. rewrite Hw, Hlo, Hce. apply repetition_frag; auto.
      * intros x. fold m. fold f. assert (HE' : mem E x = true <-> exists i, i < r /\ i <= m - mn /\ x = length st + 1 + i * width t).
        { rewrite HE, mem_0. split.
          - intros [H|(i & Hi & Hi2' & Hx)]; [discriminate|]. exists i. repeat split; auto; lia.
          - intros (i & Hi & Hi2' & Hx). right. exists i. repeat split; auto; lia. }
        unfold E2. destruct (Nat.eqb_spec mn 0) as [Hz|Hz].
        -- rewrite mem_ins, orb_true_iff, Nat.eqb_eq, HE'. intuition.
        -- rewrite HE'. intuition.
      * intros x. unfold F2. destruct mx as [|].
        -- rewrite mem_ins, mem_0, orb_true_iff, Nat.eqb_eq. fold f. intuition congruence.
        -- rewrite !mem_ins, mem_0, !orb_true_iff, !Nat.eqb_eq. fold f. intuition congruence.
  - discriminate.
Qed.
