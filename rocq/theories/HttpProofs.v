(** Proofs about addresses, links and requests. *)
From Coq Require Import String Lia ZArith.
From Verif Require Import LinesProofs SpaceProofs.
From Verif Require Export HttpSpec.
Local Open Scope list_scope.

(** ** UTF-8 *)
Ltac nb := repeat match goal with
  | |- context [N.ltb ?a ?b] => let E := fresh "L" in destruct (N.ltb_spec a b) as [E | E]
  | |- context [N.leb ?a ?b] => let E := fresh "L" in destruct (N.leb_spec a b) as [E | E]
  | |- context [N.eqb ?a ?b] => let E := fresh "L" in destruct (N.eqb_spec a b) as [E | E]
  end.
Lemma range_yes lo hi b : (lo <= b <= hi)%N -> in_span lo hi b = true.
Proof. intros [H1 H2]. unfold in_span. rewrite (proj2 (N.leb_le _ _) H1), (proj2 (N.leb_le _ _) H2). reflexivity. Qed.
Lemma range_no lo hi b : (b < lo \/ hi < b)%N -> in_span lo hi b = false.
Proof. intros [H | H]; unfold in_span; rewrite (proj2 (N.leb_gt _ _) H); [| rewrite Bool.andb_comm]; reflexivity. Qed.
Lemma range_iff lo hi b : in_span lo hi b = true <-> (lo <= b <= hi)%N.
Proof. unfold in_span. rewrite Bool.andb_true_iff, !N.leb_le. reflexivity. Qed.

Lemma utf8_parts c bs : utf8 c bs <-> bs = utf8_encode c /\ (c < 2097152)%N.
Proof.
  split.
  - intros H. destruct H; unfold utf8_encode.
    + rewrite (proj2 (N.ltb_lt _ _) H). split; [reflexivity | lia].
    + rewrite (proj2 (N.ltb_ge _ _) H1). rewrite (proj2 (N.ltb_lt (x * 64 + y) 2048)) by lia. split; [| lia].
      rewrite <- (N.div_unique (x * 64 + y) 64 x y) by lia. rewrite <- (N.mod_unique (x * 64 + y) 64 x y) by lia. reflexivity.
    + set (c := (x * 4096 + y * 64 + z)%N) in *.
      rewrite (proj2 (N.ltb_ge c 128)) by lia. rewrite (proj2 (N.ltb_ge c 2048)) by lia. rewrite (proj2 (N.ltb_lt c 65536)) by lia. split; [| lia].
      rewrite <- (N.div_unique c 4096 x (y * 64 + z)) by lia. rewrite <- (N.div_unique c 64 (x * 64 + y) z) by lia.
      rewrite <- (N.mod_unique (x * 64 + y) 64 x y) by lia. rewrite <- (N.mod_unique c 64 (x * 64 + y) z) by lia. reflexivity.
    + set (c := (x * 262144 + y * 4096 + z * 64 + w)%N) in *.
      rewrite (proj2 (N.ltb_ge c 128)) by lia. rewrite (proj2 (N.ltb_ge c 2048)) by lia. rewrite (proj2 (N.ltb_ge c 65536)) by lia. split; [| lia].
      rewrite <- (N.div_unique c 262144 x (y * 4096 + z * 64 + w)) by lia. rewrite <- (N.div_unique c 4096 (x * 64 + y) (z * 64 + w)) by lia.
      rewrite <- (N.div_unique c 64 (x * 4096 + y * 64 + z) w) by lia.
      rewrite <- (N.mod_unique (x * 64 + y) 64 x y) by lia. rewrite <- (N.mod_unique (x * 4096 + y * 64 + z) 64 (x * 64 + y) z) by lia.
      rewrite <- (N.mod_unique c 64 (x * 4096 + y * 64 + z) w) by lia. reflexivity.
  - intros [-> H]. unfold utf8_encode. destruct (N.ltb_spec c 128) as [L | L]; [apply utf8_one, L |].
    pose proof (N.div_mod' c 64) as D1. pose proof (N.mod_lt c 64 ltac:(lia)) as M1.
    destruct (N.ltb_spec c 2048) as [L2 | L2].
    { assert (E : c = (c / 64 * 64 + c mod 64)%N) by lia. rewrite E at 1. apply utf8_two; lia. }
    pose proof (N.div_mod' (c / 64) 64) as D2. pose proof (N.mod_lt (c / 64) 64 ltac:(lia)) as M2.
    rewrite N.div_div in D2 by lia. change (64 * 64)%N with 4096%N in D2.
    destruct (N.ltb_spec c 65536) as [L3 | L3].
    { assert (E : c = (c / 4096 * 4096 + (c / 64) mod 64 * 64 + c mod 64)%N) by lia. rewrite E at 1. apply utf8_three; lia. }
    pose proof (N.div_mod' (c / 4096) 64) as D3. pose proof (N.mod_lt (c / 4096) 64 ltac:(lia)) as M3.
    rewrite N.div_div in D3 by lia. change (4096 * 64)%N with 262144%N in D3.
    assert (E : c = (c / 262144 * 262144 + (c / 4096) mod 64 * 4096 + (c / 64) mod 64 * 64 + c mod 64)%N) by lia. rewrite E at 1. apply utf8_four; lia.
Qed.
Lemma scalar_small c : scalar c -> (c < 2097152)%N.
Proof. unfold scalar. lia. Qed.

Lemma next_utf8 c bs r : scalar c -> utf8 c bs -> next_char (bs ++ r) = Some (Some c, r).
Proof.
  intros S H. unfold scalar in S. destruct H; cbn [app].
  - unfold next_char. rewrite (proj2 (N.ltb_lt _ _) H). reflexivity.
  - unfold next_char. rewrite (proj2 (N.ltb_ge (192 + x) 128)) by lia. rewrite (range_yes 194 223 (192 + x)) by lia. rewrite (range_yes 128 191 (128 + y)) by lia.
    do 3 f_equal. lia.
  - unfold next_char. rewrite (proj2 (N.ltb_ge (224 + x) 128)) by lia. rewrite (range_no 194 223 (224 + x)) by lia. rewrite (range_yes 224 239 (224 + x)) by lia.
    rewrite range_yes. 2: { destruct (N.eqb_spec (224 + x) 224), (N.eqb_spec (224 + x) 237); lia. }
    rewrite range_yes by lia. do 3 f_equal. lia.
  - unfold next_char. rewrite (proj2 (N.ltb_ge (240 + x) 128)) by lia. rewrite (range_no 194 223 (240 + x)) by lia. rewrite (range_no 224 239 (240 + x)) by lia. rewrite (range_yes 240 244 (240 + x)) by lia.
    rewrite range_yes. 2: { destruct (N.eqb_spec (240 + x) 240), (N.eqb_spec (240 + x) 244); lia. }
    rewrite !range_yes by lia. do 3 f_equal. lia.
Qed.
Ltac split_next H :=
  repeat match type of H with
  | context [match ?l with [] => _ | _ :: _ => _ end] => destruct l
  | context [if in_span ?a ?b ?c then _ else _] => let E := fresh "B" in destruct (in_span a b c) eqn:E; [apply range_iff in E |]
  | context [if N.ltb ?a ?b then _ else _] => let E := fresh "B" in destruct (N.ltb_spec a b) as [E | E]
  | context [if N.eqb ?a ?b then _ else _] => let E := fresh "B" in destruct (N.eqb_spec a b) as [E | E]
  end; try discriminate.
Ltac list_lia := repeat (apply (f_equal2 (@cons N)); [lia |]); reflexivity.
Lemma next_some bs c r : next_char bs = Some (Some c, r) -> exists b, bs = b ++ r /\ scalar c /\ utf8 c b.
Proof.
  destruct bs as [| a bs]; [discriminate |]. unfold next_char. intros H.
  destruct (N.ltb_spec a 128) as [L | L].
  { injection H as <- <-. exists [a]. split; [reflexivity |]. split; [unfold scalar; lia | apply utf8_one, L]. }
  destruct (in_span 194 223 a) eqn:B1.
  { apply range_iff in B1. destruct bs as [| b bs]; [discriminate |]. destruct (in_span 128 191 b) eqn:B2; [| discriminate]. apply range_iff in B2.
    injection H as <- <-. exists [a; b]. split; [reflexivity |]. split; [unfold scalar; lia |].
    replace [a; b] with [192 + (a - 192); 128 + (b - 128)]%N by (list_lia). apply utf8_two; lia. }
  destruct (in_span 224 239 a) eqn:B2.
  { apply range_iff in B2. destruct bs as [| b bs]; [discriminate |].
    destruct (in_span (if N.eqb a 224 then 160 else 128) (if N.eqb a 237 then 159 else 191) b) eqn:B3; [| discriminate]. apply range_iff in B3.
    destruct bs as [| c' bs]; [discriminate |]. destruct (in_span 128 191 c') eqn:B4; [| discriminate]. apply range_iff in B4.
    injection H as <- <-. exists [a; b; c']. split; [reflexivity |].
    assert (X : (128 <= b <= 191 /\ (a = 224 -> 160 <= b) /\ (a = 237 -> b <= 159))%N) by (destruct (N.eqb_spec a 224), (N.eqb_spec a 237); lia).
    split; [unfold scalar; lia |].
    replace [a; b; c'] with [224 + (a - 224); 128 + (b - 128); 128 + (c' - 128)]%N by (list_lia). apply utf8_three; lia. }
  destruct (in_span 240 244 a) eqn:B3; [| discriminate].
  apply range_iff in B3. destruct bs as [| b bs]; [discriminate |].
  destruct (in_span (if N.eqb a 240 then 144 else 128) (if N.eqb a 244 then 143 else 191) b) eqn:B4; [| discriminate]. apply range_iff in B4.
  destruct bs as [| c' bs]; [discriminate |]. destruct (in_span 128 191 c') eqn:B5; [| discriminate]. apply range_iff in B5.
  destruct bs as [| e bs]; [discriminate |]. destruct (in_span 128 191 e) eqn:B6; [| discriminate]. apply range_iff in B6.
  injection H as <- <-. exists [a; b; c'; e]. split; [reflexivity |].
  assert (X : (128 <= b <= 191 /\ (a = 240 -> 144 <= b) /\ (a = 244 -> b <= 143))%N) by (destruct (N.eqb_spec a 240), (N.eqb_spec a 244); lia).
  split; [unfold scalar; lia |].
  replace [a; b; c'; e] with [240 + (a - 240); 128 + (b - 128); 128 + (c' - 128); 128 + (e - 128)]%N by (list_lia). apply utf8_four; lia.
Qed.
Lemma utf8_nonempty c bs : utf8 c bs -> bs <> [].
Proof. intros []; discriminate. Qed.
Lemma chars_utf8 t l : in_utf8 t l -> forall f, length l <= f -> chars_of f l = map Some t.
Proof.
  induction 1 as [| c bs t l S U I IH]; intros f L.
  - destruct f; reflexivity.
  - destruct bs as [| b bs]; [exfalso; exact (utf8_nonempty _ _ U eq_refl) |]. rewrite app_length in L. cbn [length] in L.
    destruct f as [| f]; [lia |]. cbn [chars_of]. rewrite (next_utf8 _ _ l S U). cbn [map]. f_equal. apply IH. lia.
Qed.
Lemma all_some_map t : all_some (map Some t) = Some t.
Proof. induction t as [| c t IH]; [reflexivity |]. cbn. rewrite IH. reflexivity. Qed.
Lemma from_utf8_yes t l : in_utf8 t l -> from_utf8 l = Some t.
Proof. intros H. unfold from_utf8. rewrite (chars_utf8 _ _ H) by lia. apply all_some_map. Qed.
Lemma lossy_yes t l : in_utf8 t l -> decode_utf8_lossy l = t.
Proof. intros H. unfold decode_utf8_lossy. rewrite (chars_utf8 _ _ H) by lia. rewrite map_map. apply map_id. Qed.
Lemma next_stray b l : stray b -> next_char (b :: l) = Some (None, l).
Proof.
  intros H. unfold next_char, stray in *. rewrite (proj2 (N.ltb_ge b 128)) by lia.
  rewrite (range_no 194 223 b) by lia. rewrite (range_no 224 239 b) by lia. rewrite (range_no 240 244 b) by lia. reflexivity.
Qed.
Lemma lossy_damaged t l : in_damaged_utf8 t l -> decode_utf8_lossy l = t.
Proof.
  assert (G : forall t l, in_damaged_utf8 t l -> forall f, length l <= f -> map (fun o => match o with Some c => c | None => 65533%N end) (chars_of f l) = t).
  { clear. induction 1 as [| c bs t l S U I IH | b t l B I IH]; intros f L.
    - destruct f; reflexivity.
    - destruct bs as [| b bs]; [exfalso; exact (utf8_nonempty _ _ U eq_refl) |]. rewrite app_length in L. cbn [length] in L.
      destruct f as [| f]; [lia |]. cbn [chars_of]. rewrite (next_utf8 _ _ l S U). cbn [map]. f_equal. apply IH. lia.
    - cbn [length] in L. destruct f as [| f]; [lia |]. cbn [chars_of]. rewrite (next_stray b l B). cbn [map]. f_equal. apply IH. lia. }
  intros H. unfold decode_utf8_lossy. apply G; [exact H | lia].
Qed.
Lemma damaged_some t l : in_damaged_utf8 t l -> t <> [] -> l <> [].
Proof. intros [| c bs t' l' S U I | b t' l' B I] Hn; [congruence | | discriminate]. destruct bs; [exfalso; exact (utf8_nonempty _ _ U eq_refl) | discriminate]. Qed.
Lemma from_utf8_inv f : forall l t, length l <= f -> all_some (chars_of f l) = Some t -> in_utf8 t l.
Proof.
  induction f as [| f IH]; intros l t L H.
  - destruct l; [| cbn in L; lia]. injection H as <-. constructor.
  - cbn [chars_of] in H. destruct (next_char l) as [[c r] |] eqn:E.
    + destruct c as [c |]; [| discriminate]. cbn [all_some] in H. destruct (all_some (chars_of f r)) as [x |] eqn:E2; [| discriminate]. injection H as <-.
      destruct (next_some _ _ _ E) as (b & -> & S & U). apply in_cons; [exact S | exact U |]. apply IH; [| exact E2].
      pose proof (utf8_nonempty _ _ U). rewrite app_length in L. destruct b; [congruence |]. cbn in L. lia.
    + destruct l as [| a l]; [injection H as <-; constructor |]. exfalso. clear - E. unfold next_char in E.
      split_next E.
Qed.
Lemma from_utf8_iff l t : from_utf8 l = Some t <-> in_utf8 t l.
Proof. split; [intros H; exact (from_utf8_inv _ _ _ (le_n _) H) | apply from_utf8_yes]. Qed.
Lemma utf8_at c : scalar c -> utf8 c (utf8_encode c).
Proof. intros S. apply utf8_parts. split; [reflexivity | apply scalar_small, S]. Qed.
Lemma encoded_in t : Forall scalar t -> in_utf8 t (flat_map utf8_encode t).
Proof. induction 1 as [| c t S F IH]; [constructor |]. cbn [flat_map]. apply in_cons; [exact S | apply utf8_at, S | exact IH]. Qed.
Lemma in_utf8_fun t l : in_utf8 t l -> l = flat_map utf8_encode t /\ Forall scalar t.
Proof.
  induction 1 as [| c bs t l S U I [-> F]]; [split; constructor |]. split; [| constructor; assumption].
  cbn [flat_map]. rewrite (proj1 (proj1 (utf8_parts _ _) U)). reflexivity.
Qed.
Lemma encode_bytes c b : scalar c -> In b (utf8_encode c) -> (b < 256)%N.
Proof.
  intros S H. pose proof (utf8_at c S) as U. unfold scalar in S. remember (utf8_encode c) as l. clear Heql. destruct U; cbn [In] in H; intuition lia.
Qed.

(** ** Percent-encoding *)
Lemma hex_16 (P : N -> Prop) : (forall n, In n [0;1;2;3;4;5;6;7;8;9;10;11;12;13;14;15]%N -> P n) -> forall n, (n < 16)%N -> P n.
Proof.
  intros H n L. apply H. assert (X : n = N.of_nat (N.to_nat n)) by lia. set (k := N.to_nat n) in *. assert (K : k < 16) by lia. rewrite X. clear - K.
  do 16 (destruct k as [| k]; [cbn; tauto |]). lia.
Qed.
Lemma hex_digit_value n : (n < 16)%N -> hex_value (hex_digit n) = Some n.
Proof. revert n. apply hex_16. intros n H. cbn in H. repeat (destruct H as [<- | H]; [reflexivity |]). contradiction. Qed.
Lemma hex_value_of c n : (n < 16)%N -> hex c n -> hex_value c = Some n.
Proof.
  intros L. revert c. pattern n. revert n L. apply hex_16. intros n H. cbn in H.
  repeat (destruct H as [<- | H]; [intros c [K | K]; vm_compute in K; injection K as <-; reflexivity |]). contradiction.
Qed.
Lemma hex_digit_hex n : (n < 16)%N -> hex (hex_digit n) n.
Proof. revert n. apply hex_16. intros n H. cbn in H. left. repeat (destruct H as [<- | H]; [reflexivity |]). contradiction. Qed.
Lemma hex_digit_in n : (n < 16)%N -> In (hex_digit n) (str "0123456789ABCDEF").
Proof.
  revert n. apply hex_16. intros n H. cbn in H.
  repeat (destruct H as [<- | H]; [cbv; tauto |]). contradiction.
Qed.
Lemma byte_halves b : (b < 256)%N -> (b / 16 < 16)%N /\ (b mod 16 < 16)%N /\ b = (b / 16 * 16 + b mod 16)%N.
Proof. intros L. pose proof (N.div_mod' b 16). pose proof (N.mod_lt b 16 ltac:(lia)). lia. Qed.
Lemma decode_escape b r : (b < 256)%N -> percent_decode (escape b ++ r) = b :: percent_decode r.
Proof.
  intros L. destruct (byte_halves b L) as (H1 & H2 & E). unfold escape. cbn [app percent_decode]. rewrite N.eqb_refl.
  rewrite (hex_digit_value _ H1), (hex_digit_value _ H2). rewrite <- E. reflexivity.
Qed.
Lemma decode_plain c r : c <> 37%N -> percent_decode (c :: r) = c :: percent_decode r.
Proof. intros H. cbn [percent_decode]. rewrite (proj2 (N.eqb_neq _ _) H). reflexivity. Qed.
Lemma decode_escapes bs r : Forall (fun b => (b < 256)%N) bs -> percent_decode (flat_map escape bs ++ r) = bs ++ percent_decode r.
Proof.
  induction 1 as [| b bs L F IH]; [reflexivity |]. cbn [flat_map]. rewrite <- app_assoc, decode_escape by exact L. rewrite IH. reflexivity.
Qed.
Lemma decode_encoded (plain : N -> Prop) bs t : (forall b, plain b -> b <> 37%N) -> percent_encoded plain bs t -> percent_decode t = bs.
Proof.
  intros P. induction 1 as [| b bs t Hb E IH | b bs t h l x y Hx Hy Lh Ll -> E IH]; [reflexivity | |].
  - rewrite decode_plain by exact (P _ Hb). rewrite IH. reflexivity.
  - cbn [percent_decode]. rewrite N.eqb_refl, (hex_value_of _ _ Lh Hx), (hex_value_of _ _ Ll Hy), IH. reflexivity.
Qed.
Lemma encoded_decode kept t : (forall c, kept c = true -> c <> 37%N /\ (c < 128)%N) -> Forall scalar t ->
  percent_decode (encode_with kept t) = flat_map utf8_encode t.
Proof.
  intros K. induction 1 as [| c t S F IH]; [reflexivity |]. unfold encode_with in *. cbn [flat_map]. destruct (kept c) eqn:E.
  - destruct (K c E) as [H L]. cbn [app]. rewrite decode_plain by exact H. rewrite IH. unfold utf8_encode. rewrite (proj2 (N.ltb_lt _ _) L). reflexivity.
  - rewrite decode_escapes, IH by (apply Forall_forall; intros b Hb; exact (encode_bytes c b S Hb)). reflexivity.
Qed.
Lemma encoded_read kept t : (forall c, kept c = true -> c <> 37%N /\ (c < 128)%N) -> Forall scalar t ->
  decode_utf8_lossy (percent_decode (encode_with kept t)) = t.
Proof. intros K S. rewrite (encoded_decode _ _ K S). apply lossy_yes, encoded_in, S. Qed.

(** ** The pieces of an encoded text *)
Definition in_escape (c : N) : Prop := In c (37%N :: str "0123456789ABCDEF").
Lemma escape_in b c : (b < 256)%N -> In c (escape b) -> in_escape c.
Proof.
  intros L H. destruct (byte_halves b L) as (H1 & H2 & _). cbn [escape In] in H. destruct H as [<- | [<- | [<- | []]]];
  [left; reflexivity | right; apply hex_digit_in, H1 | right; apply hex_digit_in, H2].
Qed.
Lemma escapes_in c x : scalar c -> In x (flat_map escape (utf8_encode c)) -> in_escape x.
Proof. intros S H. apply in_flat_map in H. destruct H as (b & Hb & Hx). exact (escape_in b x (encode_bytes c b S Hb) Hx). Qed.
Lemma app_past (c : N) (tok : text) : forall X a b, tok ++ X = a ++ c :: b -> ~ In c tok -> exists a', a = tok ++ a' /\ X = a' ++ c :: b.
Proof.
  induction tok as [| x tok IH]; intros X a b E N; [exists a; split; [reflexivity | exact E] |].
  destruct a as [| y a]; cbn in E; injection E as E1 E2; [exfalso; apply N; left; exact E1 |].
  destruct (IH X a b E2 ltac:(intros H; apply N; right; exact H)) as (a' & -> & ->). exists a'. subst. split; reflexivity.
Qed.
Lemma encoded_split kept (c : N) : ~ in_escape c -> forall t, Forall scalar t -> forall a b, encode_with kept t = a ++ c :: b ->
  exists t1 t2, t = t1 ++ c :: t2 /\ a = encode_with kept t1 /\ b = encode_with kept t2.
Proof.
  intros C t F. induction F as [| x t S F IH]; intros a b E; [destruct a; discriminate |].
  unfold encode_with in *. cbn [flat_map] in E. set (tok := if kept x then [x] else flat_map escape (utf8_encode x)) in *.
  assert (D : {kept x = true /\ x = c} + {~ In c tok}).
  { subst tok. destruct (kept x); [destruct (N.eq_dec x c) as [-> | K]; [left; split; reflexivity | right; cbn; intros [H | []]; exact (K H)] |].
    right. intros H. exact (C (escapes_in x c S H)). }
  destruct D as [[K ->] | D].
  - subst tok. rewrite K in E. destruct a as [| y a]; cbn in E.
    + injection E as <-. exists [], t. repeat split; reflexivity.
    + injection E as E1 E2. destruct (IH a b E2) as (t1 & t2 & -> & -> & ->). exists (c :: t1), t2. subst y. cbn [flat_map app]. rewrite K. repeat split; reflexivity.
  - destruct (app_past c tok _ a b E D) as (a' & -> & E'). destruct (IH a' b E') as (t1 & t2 & -> & -> & ->). exists (x :: t1), t2.
    cbn [flat_map app]. fold tok. repeat split; reflexivity.
Qed.
Lemma encoded_in_iff kept c t : ~ in_escape c -> kept c = true -> Forall scalar t -> (In c (encode_with kept t) <-> In c t).
Proof.
  intros C K S. split; intros H.
  - apply in_split in H. destruct H as (a & b & E). destruct (encoded_split kept c C t S a b E) as (t1 & t2 & -> & _). apply in_or_app. right. left. reflexivity.
  - unfold encode_with. apply in_flat_map. exists c. split; [exact H |]. rewrite K. left. reflexivity.
Qed.
Lemma encode_app kept a b : encode_with kept (a ++ b) = encode_with kept a ++ encode_with kept b.
Proof. apply flat_map_app. Qed.

(** ** The address of the page *)
Definition kept_uri (c : N) : bool := is_alnum c || uri_mark c || uri_reserved c.
Lemma one_of_iff cs c : one_of cs c = true <-> In c cs.
Proof.
  unfold one_of. rewrite existsb_exists. split; [intros (x & H & E); apply N.eqb_eq in E; subst; exact H | intros H; exists c; split; [exact H | apply N.eqb_refl]].
Qed.
Lemma alnum_iff c : is_alnum c = true <-> (48 <= c <= 57 \/ 65 <= c <= 90 \/ 97 <= c <= 122)%N.
Proof. unfold is_alnum. rewrite !Bool.orb_true_iff, !range_iff. tauto. Qed.
(** a property of the characters kept, from one of letters and digits and a check of the others *)
Lemma kept_all (P : N -> Prop) : (forall c, (48 <= c <= 57 \/ 65 <= c <= 90 \/ 97 <= c <= 122)%N -> P c) ->
  Forall P (str "-_.!~*'();/?:@&=+$,#") -> forall c, kept_uri c = true -> P c.
Proof.
  intros H F c K. unfold kept_uri in K. rewrite !Bool.orb_true_iff in K. rewrite Forall_forall in F.
  destruct K as [[K | K] | K]; [apply H, alnum_iff, K | |]; apply F; apply one_of_iff in K; cbn in K |- *; tauto.
Qed.
Lemma kept_small c : kept_uri c = true -> c <> 37%N /\ (c < 128)%N.
Proof. revert c. apply kept_all; [lia |]. repeat constructor; discriminate. Qed.
Lemma kept_fragment c : kept_uri c = true -> in_fragment c = true /\ one_of [9; 10; 13]%N c = false.
Proof.
  revert c. apply kept_all; [| repeat constructor].
  intros c H. unfold in_fragment, one_of. cbn [existsb]. nb; try lia; repeat split.
Qed.
Lemma escape_fragment c : in_escape c -> in_fragment c = true /\ one_of [9; 10; 13]%N c = false.
Proof. intros H. cbn in H. repeat (destruct H as [<- | H]; [split; reflexivity |]). contradiction. Qed.
Lemma encoded_chars (P : N -> Prop) kept t : Forall scalar t -> (forall c, kept c = true -> P c) -> (forall c, in_escape c -> P c) ->
  Forall P (encode_with kept t).
Proof.
  intros S K E. induction S as [| c t Sc S IH]; [constructor |]. unfold encode_with in *. cbn [flat_map]. apply Forall_app. split; [| exact IH].
  destruct (kept c) eqn:D; [constructor; [apply K, D | constructor] |]. apply Forall_forall. intros x Hx. apply E. exact (escapes_in c x Sc Hx).
Qed.
Lemma address_chars (P : N -> Prop) : (forall c, (48 <= c <= 57 \/ 65 <= c <= 90 \/ 97 <= c <= 122)%N -> P c) ->
  Forall P (str "-_.!~*'();/?:@&=+$,#%") -> forall t, Forall scalar t -> Forall P (encode_uri t).
Proof.
  intros A F t S. apply (encoded_chars P kept_uri t S).
  - apply kept_all; [exact A |]. rewrite Forall_forall in F |- *. intros c H. apply F. cbn in H |- *. tauto.
  - intros c H. cbn in H. rewrite Forall_forall in F. destruct H as [<- | H]; [apply F; cbn; tauto |]. apply A.
    repeat (destruct H as [<- | H]; [lia |]). contradiction.
Qed.
Lemma encode_none kept t : Forall (fun c => kept c = true) t -> encode_with kept t = t.
Proof. induction 1 as [| c t K F IH]; [reflexivity |]. unfold encode_with in *. cbn [flat_map]. rewrite K, IH. reflexivity. Qed.
Lemma filter_all {A} (f : A -> bool) l : Forall (fun x => f x = true) l -> filter f l = l.
Proof. induction 1 as [| x l H F IH]; [reflexivity |]. cbn. rewrite H, IH. reflexivity. Qed.
Lemma address_uri t : Forall scalar t -> address_of t = encode_uri t.
Proof.
  intros S. pose proof (encoded_chars _ kept_uri t S kept_fragment escape_fragment) as F. change (encode_with kept_uri t) with (encode_uri t) in F.
  unfold address_of, fragment_of. rewrite N.eqb_refl. rewrite filter_all; [apply encode_none |]; apply Forall_forall; intros c H; rewrite Forall_forall in F; destruct (F c H) as [H1 H2];
  [exact H1 | rewrite H2; reflexivity].
Qed.

Lemma escaped_one b r : (b < 256)%N -> escaped_byte (escape b ++ r) = Some (b, r).
Proof.
  intros L. destruct (byte_halves b L) as (H1 & H2 & E). unfold escape, escaped_byte. cbn [app]. rewrite N.eqb_refl.
  rewrite (hex_digit_value _ H1), (hex_digit_value _ H2). rewrite <- E. reflexivity.
Qed.
Lemma escaped_many bs r : Forall (fun b => (b < 256)%N) bs -> escaped_bytes (length bs) (flat_map escape bs ++ r) = Some (bs, r).
Proof.
  induction 1 as [| b bs L F IH]; [reflexivity |]. cbn [length escaped_bytes flat_map]. rewrite <- app_assoc, escaped_one by exact L. rewrite IH. reflexivity.
Qed.
Lemma decode_uri_step_plain f c r : c <> 37%N -> decode_uri_from (S f) (c :: r) = match decode_uri_from f r with Some x => Some (c :: x) | None => None end.
Proof. intros H. cbn [decode_uri_from]. rewrite (proj2 (N.eqb_neq _ _) H). reflexivity. Qed.
Lemma decode_uri_small f b r : (b < 128)%N -> decode_uri_from (S f) (escape b ++ r) =
  match decode_uri_from f r with Some x => Some ((if uri_reserved b then escape b else [b]) ++ x) | None => None end.
Proof.
  intros L. remember (escape b ++ r) as t eqn:T. assert (E : escaped_byte t = Some (b, r)) by (rewrite T; apply escaped_one; lia).
  assert (F : firstn 3 t = escape b) by (rewrite T; reflexivity). assert (C : exists t1, t = 37%N :: t1) by (rewrite T; eexists; reflexivity).
  destruct C as (t1 & C). rewrite C. cbn [decode_uri_from]. rewrite <- C, N.eqb_refl, E, (proj2 (N.ltb_lt _ _) L), F. reflexivity.
Qed.
Lemma utf8_lead c l : utf8 c l -> (128 <= c)%N -> (128 <= hd 0 l)%N /\ extra_bytes (hd 0%N l) = Some (length (tl l)).
Proof.
  intros U L. destruct U; unfold extra_bytes; cbn [length hd tl].
  - lia.
  - split; [lia |]. rewrite range_yes by lia. reflexivity.
  - split; [lia |]. rewrite range_no by lia. rewrite range_yes by lia. reflexivity.
  - split; [lia |]. rewrite !range_no by lia. rewrite range_yes by lia. reflexivity.
Qed.
Lemma decode_uri_large f c b bs r : scalar c -> utf8 c (b :: bs) -> (128 <= c)%N -> decode_uri_from (S f) (flat_map escape (b :: bs) ++ r) =
  match decode_uri_from f r with Some x => Some (c :: x) | None => None end.
Proof.
  intros Sc U L. pose proof (next_utf8 c (b :: bs) [] Sc U) as Nx. rewrite app_nil_r in Nx.
  assert (B : Forall (fun b => (b < 256)%N) (b :: bs)).
  { apply Forall_forall. intros x Hx. rewrite (proj1 (proj1 (utf8_parts _ _) U)) in Hx. exact (encode_bytes c x Sc Hx). }
  assert (X : (128 <= b)%N /\ extra_bytes b = Some (length bs)).
  { exact (utf8_lead c (b :: bs) U L). }
  destruct X as [X1 X2]. inversion B as [| ? ? B1 B2]; subst.
  cbn [flat_map]. rewrite <- app_assoc. remember (escape b ++ flat_map escape bs ++ r) as t eqn:T.
  assert (E : escaped_byte t = Some (b, flat_map escape bs ++ r)) by (rewrite T; apply escaped_one; exact B1).
  assert (C : exists t1, t = 37%N :: t1) by (rewrite T; eexists; reflexivity).
  destruct C as (t1 & C). rewrite C. cbn [decode_uri_from]. rewrite <- C, N.eqb_refl, E, (proj2 (N.ltb_ge _ _) X1), X2, (escaped_many _ _ B2), Nx. reflexivity.
Qed.
Lemma decode_encode_from t : Forall scalar t -> forall f, length (encode_uri t) <= f -> decode_uri_from f (encode_uri t) = Some t.
Proof.
  induction 1 as [| c t Sc S IH]; intros f L; [destruct f; reflexivity |].
  unfold encode_uri, encode_with in *. cbn [flat_map] in *. fold (kept_uri c) in *. destruct (kept_uri c) eqn:K.
  - cbn [app length] in *. destruct f as [| f]; [lia |]. rewrite decode_uri_step_plain by apply (kept_small c K). rewrite IH by lia. reflexivity.
  - rewrite app_length in L. destruct (N.ltb_spec c 128) as [Lc | Lc].
    + unfold utf8_encode in *. rewrite (proj2 (N.ltb_lt _ _) Lc) in *. cbn [flat_map app] in *. rewrite app_nil_r in *.
      change (length (escape c)) with 3 in L.
      destruct f as [| f]; [lia |]. rewrite decode_uri_small by exact Lc. rewrite IH by lia.
      unfold kept_uri in K. apply Bool.orb_false_elim in K. destruct K as [_ K]. rewrite K. reflexivity.
    + pose proof (utf8_at c Sc) as U. destruct (utf8_encode c) as [| b bs]; [exfalso; exact (utf8_nonempty _ _ U eq_refl) |].
      cbn [flat_map] in L. rewrite app_length in L. change (length (escape b)) with 3 in L.
      destruct f as [| f]; [lia |]. rewrite (decode_uri_large f c b bs _ Sc U Lc). rewrite IH by lia. reflexivity.
Qed.
Lemma decode_encode t : Forall scalar t -> decode_uri (encode_uri t) = Some t.
Proof. intros S. apply decode_encode_from; [exact S | apply le_n]. Qed.
Lemma opened_address t : Forall scalar t -> opened_at (address_of t) = Some t.
Proof.
  intros S. rewrite (address_uri t S). unfold opened_at. replace (skipn 1 (hash (encode_uri t))) with (encode_uri t); [apply decode_encode, S |].
  destruct (encode_uri t); reflexivity.
Qed.

(** ** Examples *)
Lemma example_char c t : N.eqb c 59 = false -> respaced t (newline_spaces false t) -> respaced (c :: t) (c :: newline_spaces false t).
Proof.
  intros E H. destruct (N.eq_dec c 10) as [-> | K].
  - exact (respaced_sep 10 10 [] [] t (newline_spaces false t) (or_introl eq_refl) (or_introl eq_refl) (Forall_nil _) (Forall_nil _) H).
  - apply respaced_char; [| exact H]. intros [X | X]; [exact (K X) | subst; discriminate E].
Qed.
Lemma example_both t : respaced t (newline_spaces false t) /\ exists a t0, spaces a /\ t = a ++ t0 /\ respaced t0 (newline_spaces true t).
Proof.
  induction t as [| c t (IH1 & a & t0 & Ha & E & IH2)]; [split; [constructor | exists [], []; repeat split; constructor] |].
  assert (X : c = 59%N -> respaced (c :: t) (10%N :: newline_spaces true t)).
  { intros ->. rewrite E at 1. exact (respaced_sep 59 10 a [] t0 (newline_spaces true t) (or_intror eq_refl) (or_introl eq_refl) Ha (Forall_nil _) IH2). }
  cbn [newline_spaces]. destruct (N.eqb_spec c 59) as [E59 | E59].
  - split; [exact (X E59) |]. exists [], (c :: t). split; [constructor |]. split; [reflexivity | exact (X E59)].
  - pose proof (example_char c t (proj2 (N.eqb_neq _ _) E59) IH1) as Y. cbn [andb]. split; [exact Y |]. destruct (N.eqb_spec c 32) as [-> | E32].
    + exists (32%N :: a), t0. split; [constructor; [reflexivity | exact Ha] |]. split; [rewrite E; reflexivity | exact IH2].
    + exists [], (c :: t). split; [constructor |]. split; [reflexivity | exact Y].
Qed.
Lemma example_respaced t : respaced t (example_query t).
Proof. apply example_both. Qed.
Lemma example_scalar t : Forall scalar t -> Forall scalar (example_query t).
Proof.
  unfold example_query. generalize false. intros b H. revert b. induction H as [| c t Sc S IH]; intros b; [constructor |]. cbn [newline_spaces].
  destruct (N.eqb c 59); [constructor; [unfold scalar; lia | apply IH] |]. destruct (b && N.eqb c 32)%bool; [apply IH | constructor; [exact Sc | apply IH]].
Qed.

(** ** The part before a character *)
Lemma before_fun stops : forall x t y, before stops t x -> before stops t y -> x = y.
Proof.
  assert (X : forall x t, before stops t x <-> Forall (fun c => ~ In c stops) x /\ exists r, t = x ++ r /\ (r = [] \/ exists c r', r = c :: r' /\ In c stops)).
  { intros x t. split.
    - intros [t' F | t' c r F C]; (split; [exact F |]); [exists []; rewrite app_nil_r; auto | exists (c :: r); split; [reflexivity | right; eauto]].
    - intros (F & r & -> & [-> | (c & r' & -> & C)]); [rewrite app_nil_r; apply before_end, F | apply before_stop; assumption]. }
  intros x t y H G. apply X in H, G. destruct H as (F & r & -> & R). destruct G as (F' & r' & E & R'). clear X. revert y F' E. induction x as [| c x IH]; intros y F' E.
  - destruct y as [| d y]; [reflexivity |]. cbn in E. destruct R as [-> | (c & r1 & -> & C)]; [discriminate |]. injection E as <- _. inversion F'; contradiction.
  - inversion F as [| ? ? Hc F1]; subst. destruct y as [| d y].
    + cbn in E. destruct R' as [-> | (e & r1 & -> & C)]; [discriminate |]. injection E as <- _. contradiction.
    + cbn in E. injection E as -> E. inversion F'; subst. f_equal. apply IH; assumption.
Qed.
Lemma before_total stops t : exists x, before stops t x.
Proof.
  induction t as [| c t (x & IH)]; [exists []; apply before_end; constructor |].
  destruct (in_dec N.eq_dec c stops) as [C | C]; [exists []; apply (before_stop stops [] c t); [constructor | exact C] |].
  exists (c :: x). destruct IH as [t F | t d r F D]; [apply before_end; constructor; assumption |]. apply (before_stop stops (c :: t) d r); [constructor; assumption | exact D].
Qed.
Lemma before_encoded stops kept t x : Forall scalar t -> (forall c, In c stops -> kept c = true /\ ~ in_escape c) -> before stops t x -> before stops (encode_with kept t) (encode_with kept x).
Proof.
  intros S K H. destruct H as [t F | t c r F C].
  - apply before_end. apply Forall_forall. intros c H C. destruct (K c C) as [K1 K2]. rewrite (encoded_in_iff kept c t K2 K1 S) in H. rewrite Forall_forall in F. exact (F c H C).
  - apply Forall_app in S. destruct S as [S1 S2]. destruct (K c C) as [K1 K2]. rewrite encode_app. change (c :: r) with ([c] ++ r). rewrite encode_app. replace (encode_with kept [c]) with [c] by (unfold encode_with; cbn; rewrite K1; reflexivity).
    cbn [app]. apply before_stop; [| exact C]. apply Forall_forall. intros d H D. destruct (K d D) as [L1 L2]. rewrite (encoded_in_iff kept d t L2 L1 S1) in H. rewrite Forall_forall in F. exact (F d H D).
Qed.

(** ** The links beside a match *)
Definition plus (c : N) : N := if N.eqb c 43 then 32%N else c.
Lemma plus_scalar c : scalar c -> scalar (plus c).
Proof. unfold plus. destruct (N.eqb c 43); [unfold scalar; lia | tauto]. Qed.
Lemma plus_id t : ~ In 43%N t -> map plus t = t.
Proof. intros H. rewrite <- (map_id t) at 2. apply map_ext_in. intros c Hc. unfold plus. destruct (N.eqb_spec c 43); [subst; contradiction | reflexivity]. Qed.
Lemma plus_none t : map plus t = t -> ~ In 43%N t.
Proof.
  induction t as [| c t IH]; intros E H; [exact H |]. cbn [map] in E. injection E as E1 E2. destruct H as [-> | H]; [discriminate E1 | exact (IH E2 H)].
Qed.
Lemma escape_plus t : (forall c, In c t -> in_escape c) -> map plus t = t.
Proof. intros H. apply plus_id. intros K. specialize (H _ K). cbn in H. repeat (destruct H as [H | H]; [discriminate H |]). exact H. Qed.
Lemma plus_decode t : Forall scalar t -> percent_decode (map plus (encode_uri t)) = flat_map utf8_encode (map plus t).
Proof.
  induction 1 as [| c t Sc S IH]; [reflexivity |]. change (encode_uri (c :: t)) with ((if kept_uri c then [c] else flat_map escape (utf8_encode c)) ++ encode_uri t).
  rewrite map_app. cbn [map flat_map]. destruct (kept_uri c) eqn:K.
  - destruct (kept_small c K) as [H L]. cbn [map app]. unfold plus at 1 3. destruct (N.eqb_spec c 43) as [-> | N43].
    + rewrite decode_plain by discriminate. rewrite IH. reflexivity.
    + rewrite decode_plain by exact H. rewrite IH. unfold utf8_encode at 2. rewrite (proj2 (N.ltb_lt _ _) L). reflexivity.
  - rewrite (escape_plus (flat_map escape (utf8_encode c))) by (intros x Hx; exact (escapes_in c x Sc Hx)).
    rewrite decode_escapes, IH by (apply Forall_forall; intros b Hb; exact (encode_bytes c b Sc Hb)). unfold plus at 2. destruct (N.eqb_spec c 43) as [-> | _]; [discriminate K | reflexivity].
Qed.
Lemma read_encoded t x : Forall scalar t -> read_value (encode_uri t) x <-> x = map plus t.
Proof.
  intros S. unfold read_value. change (map (fun c => if N.eqb c 43 then 32%N else c)) with (map plus). rewrite (plus_decode t S).
  rewrite (lossy_yes (map plus t)); [split; congruence |]. apply encoded_in. apply Forall_map. revert S. apply Forall_impl. exact plus_scalar.
Qed.
Ltac not_escape := let H := fresh in intros H; cbn in H; repeat (destruct H as [H | H]; [discriminate H |]); exact H.
Lemma amp_free : ~ in_escape 38. Proof. not_escape. Qed.
Lemma eq_free : ~ in_escape 61. Proof. not_escape. Qed.
Lemma sharp_free : ~ in_escape 35. Proof. not_escape. Qed.
Lemma piece_value W v y val : Forall scalar W -> v ++ y = encode_uri W -> (y = [] \/ exists y', y = 38%N :: y') -> ~ In 38%N v -> read_value v val ->
  exists V B, W = V ++ B /\ ~ In 38%N V /\ val = map plus V.
Proof.
  intros S E Y N R. destruct Y as [-> | (y' & ->)].
  - rewrite app_nil_r in E. subst v. exists W, []. rewrite app_nil_r. split; [reflexivity |]. split; [| apply read_encoded; assumption].
    intros H. apply N. apply encoded_in_iff; [exact amp_free | reflexivity | exact S | exact H].
  - destruct (encoded_split kept_uri 38 amp_free W S v y' (eq_sym E)) as (V & B & -> & -> & ->). exists V, (38%N :: B). apply Forall_app in S. destruct S as [S _].
    split; [reflexivity |]. split; [| apply read_encoded; assumption]. intros H. apply N. apply encoded_in_iff; [exact amp_free | reflexivity | exact S | exact H].
Qed.
Lemma query_of_url host query H P T : ~ In 63%N host -> ~ In 63%N H -> H ++ 63%N :: P ++ T = host ++ 63%N :: query -> host = H /\ query = P ++ T.
Proof.
  intros N1 N2 E. destruct (app_past 63 H _ host query E N2) as (a & -> & E'). destruct a as [| c a].
  - injection E' as E'. rewrite app_nil_r. auto.
  - cbn in E'. injection E' as E1 _. subst c. exfalso. apply N1. apply in_or_app. right. left. reflexivity.
Qed.
Lemma before_prefix stops P t x : Forall (fun c => ~ In c stops) P -> before stops t x -> before stops (P ++ t) (P ++ x).
Proof.
  intros F H. destruct H as [t G | t c r G C]; [apply before_end; apply Forall_app; auto |]. rewrite app_assoc. apply before_stop; [apply Forall_app; auto | exact C].
Qed.
Lemma before_parts stops t x : before stops t x -> exists r, t = x ++ r /\ (r = [] \/ exists c r', r = c :: r' /\ In c stops).
Proof. intros [t' F | t' c r F C]; [exists []; rewrite app_nil_r; auto | exists (c :: r); split; [reflexivity | right; eauto]]. Qed.
Lemma before_whole stops t : before stops t t -> Forall (fun c => ~ In c stops) t.
Proof.
  intros H. remember t as t' eqn:E in H at 2. destruct H as [t' F | t' c r F C]; [exact F |]. apply (f_equal (@length N)) in E. rewrite app_length in E. cbn in E. lia.
Qed.
Definition plain_words (T : text) : Prop := ~ In 38%N T /\ ~ In 35%N T /\ ~ In 43%N T.
(** the value is all of the text *)
Lemma whole_value (T1 r V A B : text) (pre : text) : A ++ V ++ B = pre ++ T1 -> map plus V = pre ++ T1 ++ r -> r = [] /\ A = [] /\ B = [] /\ V = pre ++ T1.
Proof.
  intros E M. pose proof (f_equal (@length N) M) as L. rewrite map_length, !app_length in L. pose proof (f_equal (@length N) E) as L2. rewrite !app_length in L2.
  assert (Hr : r = []) by (destruct r; [reflexivity | cbn in L; lia]). subst r. assert (Ha : A = []) by (destruct A; [reflexivity | cbn in L, L2; lia]). subst A.
  assert (Hb : B = []) by (destruct B; [reflexivity | cbn in L, L2; lia]). subst B. rewrite app_nil_r in E. cbn in E. auto.
Qed.
Lemma url_parts H P T host query seg : Forall scalar T -> ~ In 63%N host -> ~ In 63%N H -> Forall (fun c => ~ In c (str "#")) P ->
  H ++ 63%N :: P ++ encode_uri T = host ++ 63%N :: query -> before (str "#") query seg ->
  exists T1 r, T = T1 ++ r /\ seg = P ++ encode_uri T1 /\ before (str "#") T T1.
Proof.
  intros S N1 N2 F E B. destruct (query_of_url host query H P _ N1 N2 E) as [-> ->]. destruct (before_total (str "#") T) as (T1 & BT). destruct (before_parts _ _ _ BT) as (r & Er & _).
  exists T1, r. split; [exact Er |]. split; [| exact BT]. eapply before_fun; [exact B |]. apply before_prefix; [exact F |].
  apply (before_encoded (str "#") kept_uri T T1 S); [| exact BT]. intros c [<- | []]. split; [reflexivity | exact sharp_free].
Qed.
Lemma wiki_value T val url : Forall scalar T -> url = str "https://en.wikipedia.org/w/index.php?ns0=1&search=" ++ encode_uri T ->
  parameter url (str "search") val -> val = T -> plain_words T.
Proof.
  intros S U (host & query & x & v & y & E & N1 & _ & B & X & Y & Nv & _ & _ & R) V. subst val.
  change (str "https://en.wikipedia.org/w/index.php?ns0=1&search=" ++ encode_uri T) with (str "https://en.wikipedia.org/w/index.php" ++ 63%N :: str "ns0=1&search=" ++ encode_uri T) in U. rewrite U in E.
  assert (N2 : ~ In 63%N (str "https://en.wikipedia.org/w/index.php")) by not_escape.
  assert (F : Forall (fun c => ~ In c (str "#")) (str "ns0=1&search=")) by (repeat (constructor; [cbn; intros [K | []]; discriminate K |]); constructor).
  destruct (url_parts _ _ T host query _ S N1 N2 F E B) as (T1 & r & ET & Q & BT). clear E B U N1 N2 F.
  assert (S1 : Forall scalar T1) by (rewrite ET in S; apply Forall_app in S; apply S).
  assert (W : exists A W, A ++ W = T1 /\ v ++ y = encode_uri W).
  { change (str "ns0=1&search=" ++ encode_uri T1) with (str "ns0" ++ 61%N :: str "1&search" ++ 61%N :: encode_uri T1) in Q.
    rewrite app_assoc in Q. symmetry in Q.
    destruct (app_past 61 (str "ns0") _ _ _ Q ltac:(not_escape)) as (a1 & E1 & Q1). destruct a1 as [| c a1].
    { exfalso. apply (f_equal (@length N)) in E1. rewrite !app_length in E1. cbn in E1. lia. }
    cbn in Q1. injection Q1 as _ Q1. change (49%N :: 38%N :: 115%N :: 101%N :: 97%N :: 114%N :: 99%N :: 104%N :: 61%N :: encode_uri T1) with (str "1&search" ++ 61%N :: encode_uri T1) in Q1.
    destruct (app_past 61 (str "1&search") _ _ _ Q1 ltac:(not_escape)) as (a2 & E2 & Q2). destruct a2 as [| c2 a2].
    { cbn in Q2. injection Q2 as Q2. exists [], T1. auto. }
    cbn in Q2. injection Q2 as _ Q2. destruct (encoded_split kept_uri 61 eq_free T1 S1 a2 (v ++ y) Q2) as (A & W & -> & _ & EW). exists (A ++ [61%N]), W. rewrite <- app_assoc. auto. }
  destruct W as (A & W & EA & EW). assert (SW : Forall scalar W) by (rewrite <- EA in S1; apply Forall_app in S1; apply S1).
  destruct (piece_value W v y T SW EW Y Nv R) as (V & B & -> & NV & M). rewrite ET in M. symmetry in M.
  destruct (whole_value T1 r V A B [] EA M) as (-> & -> & -> & ->). cbn [app] in *. rewrite app_nil_r in *. subst T1.
  split; [exact NV |]. split; [| apply plus_none; exact M]. intros K. pose proof (before_whole _ _ BT) as F. rewrite Forall_forall in F. apply (F _ K). left. reflexivity.
Qed.
Lemma wiki_found T : Forall scalar T -> plain_words T -> parameter (str "https://en.wikipedia.org/w/index.php?ns0=1&search=" ++ encode_uri T) (str "search") T.
Proof.
  intros S (N1 & N2 & N3). exists (str "https://en.wikipedia.org/w/index.php"), (str "ns0=1&search=" ++ encode_uri T), (str "ns0=1&"), (encode_uri T), []. rewrite app_nil_r.
  split; [reflexivity |]. split; [not_escape |]. split; [not_escape |]. split.
  { change (str "ns0=1&" ++ str "search" ++ 61%N :: encode_uri T) with (str "ns0=1&search=" ++ encode_uri T). apply before_end. apply Forall_app. split.
    - repeat (constructor; [cbn; intros [K | []]; discriminate K |]); constructor.
    - apply Forall_forall. intros c H [<- | []]. apply N2. apply (encoded_in_iff kept_uri 35 T sharp_free eq_refl S). exact H. }
  split; [right; exists (str "ns0=1"); reflexivity |]. split; [left; reflexivity |].
  split; [intros H; apply N1; exact (proj1 (encoded_in_iff kept_uri 38 T amp_free eq_refl S) H) |]. split; [not_escape |]. split; [not_escape |].
  apply read_encoded; [exact S |]. symmetry. apply plus_id, N3.
Qed.
Lemma google_value T val url : Forall scalar T -> url = str "https://google.com/search?q=define:" ++ encode_uri T ->
  parameter url (str "q") val -> val = str "define:" ++ T -> plain_words T.
Proof.
  intros S U (host & query & x & v & y & E & N1 & _ & B & X & Y & Nv & _ & _ & R) V. subst val.
  change (str "https://google.com/search?q=define:" ++ encode_uri T) with (str "https://google.com/search" ++ 63%N :: str "q=define:" ++ encode_uri T) in U. rewrite U in E.
  assert (N2 : ~ In 63%N (str "https://google.com/search")) by not_escape.
  assert (F : Forall (fun c => ~ In c (str "#")) (str "q=define:")) by (repeat (constructor; [cbn; intros [K | []]; discriminate K |]); constructor).
  destruct (url_parts _ _ T host query _ S N1 N2 F E B) as (T1 & r & ET & Q & BT). clear E B U N1 N2 F.
  assert (S1 : Forall scalar T1) by (rewrite ET in S; apply Forall_app in S; apply S).
  assert (SD : Forall scalar (str "define:")) by (change (str "define:") with [100; 101; 102; 105; 110; 101; 58]%N; repeat (constructor; [unfold scalar; lia |]); constructor).
  assert (W : exists A W, A ++ W = str "define:" ++ T1 /\ v ++ y = encode_uri W).
  { change (str "q=define:" ++ encode_uri T1) with (str "q" ++ 61%N :: encode_uri (str "define:" ++ T1)) in Q.
    rewrite app_assoc in Q. symmetry in Q.
    destruct (app_past 61 (str "q") _ _ _ Q ltac:(not_escape)) as (a1 & E1 & Q1). destruct a1 as [| c a1].
    { cbn [app] in Q1. injection Q1 as Q1. exists [], (str "define:" ++ T1). split; [reflexivity | symmetry; exact Q1]. }
    cbn [app] in Q1. injection Q1 as _ Q1.
    assert (SS : Forall scalar (str "define:" ++ T1)) by (apply Forall_app; auto).
    destruct (encoded_split kept_uri 61 eq_free _ SS a1 (v ++ y) Q1) as (A & W & EA & _ & EW). exists (A ++ [61%N]), W. rewrite <- app_assoc. split; [symmetry; exact EA | exact EW]. }
  destruct W as (A & W & EA & EW). assert (SW : Forall scalar W) by (apply (proj2 (proj1 (Forall_app _ A W) (eq_ind_r _ (proj2 (Forall_app _ (str "define:") T1) (conj SD S1)) EA)))).
  destruct (piece_value W v y _ SW EW Y Nv R) as (V & B & -> & NV & M). rewrite ET in M. symmetry in M.
  destruct (whole_value T1 r V A B (str "define:") EA M) as (-> & -> & -> & ->). rewrite app_nil_r in *. subst T1.
  split; [intros K; apply NV; apply in_or_app; right; exact K |]. split.
  - intros K. pose proof (before_whole _ _ BT) as F. rewrite Forall_forall in F. apply (F _ K). left. reflexivity.
  - intros K. apply (plus_none _ M). apply in_or_app. right. exact K.
Qed.
Lemma google_found T : Forall scalar T -> plain_words T -> parameter (str "https://google.com/search?q=define:" ++ encode_uri T) (str "q") (str "define:" ++ T).
Proof.
  intros S (N1 & N2 & N3). exists (str "https://google.com/search"), (str "q=define:" ++ encode_uri T), [], (encode_uri (str "define:" ++ T)), []. rewrite app_nil_r.
  split; [reflexivity |]. split; [not_escape |]. split; [not_escape |]. split.
  { change ([] ++ str "q" ++ 61%N :: encode_uri (str "define:" ++ T)) with (str "q=define:" ++ encode_uri T). apply before_end. apply Forall_app. split.
    - repeat (constructor; [cbn; intros [K | []]; discriminate K |]); constructor.
    - apply Forall_forall. intros c H [<- | []]. apply N2. apply (encoded_in_iff kept_uri 35 T sharp_free eq_refl S). exact H. }
  assert (SD : Forall scalar (str "define:")) by (change (str "define:") with [100; 101; 102; 105; 110; 101; 58]%N; repeat (constructor; [unfold scalar; lia |]); constructor).
  assert (SS : Forall scalar (str "define:" ++ T)) by (apply Forall_app; auto).
  split; [left; reflexivity |]. split; [left; reflexivity |].
  split. { intros H. apply (encoded_in_iff kept_uri 38 _ amp_free eq_refl SS) in H. apply in_app_or in H. destruct H as [H | H]; [revert H; not_escape | exact (N1 H)]. }
  split; [not_escape |]. split; [not_escape |].
  apply read_encoded; [exact SS |]. symmetry. apply plus_id. intros H. apply in_app_or in H. destruct H as [H | H]; [revert H; not_escape | exact (N3 H)].
Qed.
Lemma cxio_value T val : Forall scalar T -> last_segment (str "https://crossword-solver.io/clue/" ++ encode_uri T) (str "https://crossword-solver.io/clue/") val <-> before (str "/?#") T val.
Proof.
  intros S. assert (K : forall c, In c (str "/?#") -> kept_uri c = true /\ ~ in_escape c).
  { intros c [<- | [<- | [<- | []]]]; (split; [reflexivity | not_escape]). }
  assert (R : forall x, before (str "/?#") T x -> decode_utf8_lossy (percent_decode (encode_uri x)) = x).
  { intros x B. apply (encoded_read kept_uri x kept_small). destruct (before_parts _ _ _ B) as (r & E & _). rewrite E in S. apply Forall_app in S. apply S. }
  split.
  - intros (rest & v & E & B & D). apply app_inv_head in E. subst rest. destruct (before_total (str "/?#") T) as (x & BT).
    rewrite (before_fun _ _ _ _ B (before_encoded _ kept_uri T x S K BT)) in D. change (encode_with kept_uri x) with (encode_uri x) in D. rewrite (R x BT) in D. subst val. exact BT.
  - intros B. exists (encode_uri T), (encode_uri val). split; [reflexivity |]. split; [exact (before_encoded _ kept_uri T val S K B) | exact (R val B)].
Qed.

(** ** Requests *)
Lemma path_char_iff c : in_path c = true <-> path_char c.
Proof.
  unfold path_char. split.
  - unfold in_path. rewrite !Bool.orb_true_iff, !range_iff, !N.eqb_eq, one_of_iff. intros H.
    assert (B : (33 <= c <= 126)%N) by (cbn in H; lia). assert (K : In (N.to_nat c) (seq 33 94)) by (apply in_seq; lia).
    cbn in K. repeat (destruct K as [K | K]; [apply (f_equal N.of_nat) in K; rewrite N2Nat.id in K; cbn in K; subst c; first [left; lia | right; cbn; tauto | exfalso; cbn in H; lia] |]). contradiction.
  - intros [H | H]; [| cbn in H; repeat (destruct H as [<- | H]; [reflexivity |]); contradiction]. unfold in_path.
    destruct H as [H | [H | H]]; [rewrite (range_yes 36 59) by lia | rewrite (range_yes 64 95) by lia | rewrite (range_yes 97 122) by lia]; rewrite ?Bool.orb_true_r; reflexivity.
Qed.
Lemma path_of_iff t p : path_of t = Some p <-> before (str "?#") t p /\ Forall path_char p.
Proof.
  revert p. induction t as [| c t IH]; intros p; cbn [path_of].
  - split; [intros [= <-]; split; [apply before_end |]; constructor |]. intros [B _]. rewrite (before_fun _ _ _ _ B (before_end _ [] (Forall_nil _))). reflexivity.
  - destruct (one_of (str "?#") c) eqn:C.
    + apply one_of_iff in C. assert (B0 : before (str "?#") (c :: t) []) by (apply (before_stop _ [] c t); [constructor | exact C]).
      split; [intros [= <-]; split; [exact B0 | constructor] |]. intros [B _]. rewrite (before_fun _ _ _ _ B B0). reflexivity.
    + assert (NC : ~ In c (str "?#")) by (intros H; apply one_of_iff in H; congruence).
      assert (X : forall p, before (str "?#") (c :: t) p <-> exists p', p = c :: p' /\ before (str "?#") t p').
      { assert (Y : forall p', before (str "?#") t p' -> before (str "?#") (c :: t) (c :: p')) by (intros p' B; apply (before_prefix _ [c] t p'); [constructor; [exact NC | constructor] | exact B]).
        intros p0. split; [| intros (p' & -> & B); apply Y, B]. intros B. destruct (before_total (str "?#") t) as (p' & B'). exists p'. split; [exact (before_fun _ _ _ _ B (Y _ B')) | exact B']. }
      destruct (in_path c) eqn:K; [pose proof (proj1 (path_char_iff c) K) as KP |].
      * destruct (path_of t) as [p' |] eqn:E.
        -- destruct (proj1 (IH p') eq_refl) as [B F]. split.
           ++ intros [= <-]. split; [apply X; eauto | constructor; assumption].
           ++ intros [B2 F2]. apply X in B2. destruct B2 as (p2 & -> & B2). rewrite (before_fun _ _ _ _ B B2). reflexivity.
        -- split; [discriminate |]. intros [B2 F2]. apply X in B2. destruct B2 as (p2 & -> & B2). inversion F2; subst. pose proof (proj2 (IH p2) (conj B2 H2)). discriminate.
      * split; [discriminate |]. intros [B2 F2]. apply X in B2. destruct B2 as (p2 & -> & B2). inversion F2; subst. pose proof (proj2 (path_char_iff c) H1). congruence.
Qed.
Lemma uri_path_iff t p : uri_path t = Some p <-> request_path t p.
Proof.
  unfold uri_path, request_path. destruct (N.leb_spec (N.of_nat (length t)) 65534) as [L | L].
  2: { split; [discriminate | intros (H & _); lia]. }
  destruct t as [| c t].
  - split; [discriminate |]. intros (_ & B & _ & p' & ->). pose proof (before_fun _ _ _ _ B (before_end _ [] (Forall_nil _))). discriminate.
  - destruct (N.eqb_spec c 47) as [-> | K].
    + rewrite path_of_iff. split; [| tauto]. intros [B F]. split; [exact L |]. split; [exact B |]. split; [exact F |].
      destruct (before_total (str "?#") t) as (p' & B'). exists p'. apply (before_fun _ _ _ _ B). apply (before_prefix _ [47%N] t p'); [constructor; [not_escape | constructor] | exact B'].
    + split; [discriminate |]. intros (_ & B & _ & p' & ->). exfalso. apply K. destruct (before_parts _ _ _ B) as (r & E & _). injection E as E _. exact E.
Qed.
Lemma segment_parts p s r : segment p = (s, r) -> ~ In 47%N s /\ (p = s /\ r = [] \/ p = s ++ 47%N :: r).
Proof.
  revert s r. induction p as [| c p IH]; intros s r E; cbn [segment] in E.
  - injection E as <- <-. auto.
  - destruct (N.eqb_spec c 47) as [-> | K]; [injection E as <- <-; split; [intros [] | right; reflexivity] |]. destruct (segment p) as [s' r'] eqn:E'. injection E as <- <-.
    destruct (IH s' r' eq_refl) as [H1 H2]. split; [intros [H | H]; [exact (K H) | exact (H1 H)] |]. destruct H2 as [[-> ->] | ->]; [left | right]; auto.
Qed.
Lemma segment_more s r : ~ In 47%N s -> segment (s ++ 47%N :: r) = (s, r).
Proof.
  induction s as [| c s IH]; intros H; cbn [app segment]; [reflexivity |]. destruct (N.eqb_spec c 47) as [-> | K]; [exfalso; apply H; left; reflexivity |].
  rewrite IH by (intros G; apply H; right; exact G). reflexivity.
Qed.
Lemma segment_last s : ~ In 47%N s -> segment s = (s, []).
Proof.
  induction s as [| c s IH]; intros H; cbn [segment]; [reflexivity |]. destruct (N.eqb_spec c 47) as [-> | K]; [exfalso; apply H; left; reflexivity |].
  rewrite IH by (intros G; apply H; right; exact G). reflexivity.
Qed.
Lemma segment_further s rest : ~ In 47%N s -> further rest -> segment (s ++ rest) = (s, match rest with [] => [] | _ :: x => x end).
Proof. intros H [-> | (x & ->)]; [rewrite app_nil_r; apply segment_last, H | apply segment_more, H]. Qed.
Lemma first_is p name : ~ In 47%N name -> (fst (segment p) = name <-> exists rest, p = name ++ rest /\ further rest).
Proof.
  intros H. split.
  - destruct (segment p) as [s r] eqn:E. destruct (segment_parts _ _ _ E) as [_ H2]. cbn [fst]. intros <-. destruct H2 as [[-> ->] | ->]; [exists []; rewrite app_nil_r; split; [reflexivity | left; reflexivity] | exists (47%N :: r); split; [reflexivity | right; eauto]].
  - intros (rest & -> & F). rewrite (segment_further _ _ H F). reflexivity.
Qed.
Lemma text_eqb_refl t : text_eqb t t = true.
Proof. induction t as [| c t IH]; [reflexivity |]. cbn. rewrite N.eqb_refl. exact IH. Qed.
Lemma text_eqb_iff a b : text_eqb a b = true <-> a = b.
Proof. split; [apply text_eqb_true | intros ->; apply text_eqb_refl]. Qed.
Lemma text_eqb_no a b : a <> b -> text_eqb a b = false.
Proof. intros H. destruct (text_eqb a b) eqn:E; [apply text_eqb_true in E; contradiction | reflexivity]. Qed.
Lemma second_is p name x : ~ In 47%N name -> segment p = (name, x) -> forall seg, ~ In 47%N seg -> seg <> [] ->
  (fst (segment x) = seg <-> exists rest, p = name ++ 47%N :: seg ++ rest /\ further rest).
Proof.
  intros H E seg Hs Hn. destruct (segment_parts _ _ _ E) as [_ [[-> ->] | ->]].
  - cbn. split; [intros <-; congruence |]. intros (rest & E2 & _). apply (f_equal (@length N)) in E2. rewrite app_length in E2. cbn in E2. lia.
  - rewrite (first_is x seg Hs). split; intros (rest & E2 & F); exists rest; (split; [| exact F]); [rewrite E2; reflexivity |]. apply app_inv_head in E2. injection E2 as E2. exact E2.
Qed.
Lemma fst_no_slash p : ~ In 47%N (fst (segment p)).
Proof. destruct (segment p) as [s r] eqn:E. apply (segment_parts _ _ _ E). Qed.
Ltac noslash := cbn; let H := fresh in intros H; repeat (destruct H as [H | H]; [discriminate H |]); exact H.
(** what the routes see of a request *)
Lemma dispatch_path r p : request_path (req_target r) (47%N :: p) -> dispatch r = first_route routes r p.
Proof. intros H. apply uri_path_iff in H. unfold dispatch. rewrite H. reflexivity. Qed.
Lemma dispatch_inv r : dispatch r <> BadRequest -> exists p, request_path (req_target r) (47%N :: p).
Proof.
  unfold dispatch. destruct (uri_path (req_target r)) as [p |] eqn:E; [| congruence]. intros _. apply uri_path_iff in E. pose proof E as (_ & _ & _ & p' & ->). eauto.
Qed.
Lemma path_fun t p q : request_path t p -> request_path t q -> p = q.
Proof. intros (_ & A & _) (_ & B & _). exact (before_fun _ _ _ _ A B). Qed.
Definition served_as (r : request) (p : list N) : served :=
  let s := fst (segment p) in let x := fst (segment (snd (segment p))) in
  match req_method r with
  | Get =>
      if text_eqb s (str "query") then match x with [] => Files | q => Answer (decode_utf8_lossy (percent_decode q)) true end
      else if text_eqb s (str "ws") then if upgrade r then Upgrade else Files
      else if text_eqb s (str "wordlist") then match x with [] => Files | n => Wordlist n end
      else if text_eqb s (str "wordlists.js") then WordlistJs
      else if text_eqb s (str "metrics") then Metrics else Files
  | Post =>
      if text_eqb s (str "query") then
        match req_length r with
        | Some n => if N.leb n 65536 then match from_utf8 (req_body r) with Some t => Answer t false | None => Crash end else Files
        | None => Files
        end
      else Files
  | OtherMethod => Files
  end.
Lemma route_served r p : first_route routes r p = served_as r p.
Proof.
  unfold served_as, first_route, routes, get_query, post_query, ws_route, wordlist_route, fixed_route. destruct (segment p) as [s x]. cbn [fst snd].
  destruct (req_method r); [| |reflexivity].
  - assert (D : forall a b, text_eqb a b = false -> text_eqb s a = true -> text_eqb s b = false).
    { intros a b H E. apply text_eqb_true in E. subst s. exact H. }
    destruct (text_eqb s (str "query")) eqn:E1.
    { rewrite (D (str "query") (str "ws") eq_refl E1), (D (str "query") (str "wordlist") eq_refl E1), (D (str "query") (str "wordlists.js") eq_refl E1), (D (str "query") (str "metrics") eq_refl E1).
      destruct (fst (segment x)); reflexivity. }
    destruct (text_eqb s (str "ws")) eqn:E2.
    { rewrite (D (str "ws") (str "wordlist") eq_refl E2), (D (str "ws") (str "wordlists.js") eq_refl E2), (D (str "ws") (str "metrics") eq_refl E2). destruct (upgrade r); reflexivity. }
    cbn [andb]. destruct (text_eqb s (str "wordlist")) eqn:E3.
    { rewrite (D (str "wordlist") (str "wordlists.js") eq_refl E3), (D (str "wordlist") (str "metrics") eq_refl E3). destruct (fst (segment x)); reflexivity. }
    destruct (text_eqb s (str "wordlists.js")); [reflexivity |]. destruct (text_eqb s (str "metrics")); reflexivity.
  - destruct (text_eqb s (str "query")); [| reflexivity]. destruct (req_length r) as [n |]; [| reflexivity]. destruct (N.leb n 65536); reflexivity.
Qed.
Lemma app_head {A} (a : A) l m : (a :: l) ++ m = a :: (l ++ m). Proof. reflexivity. Qed.
Lemma get_answer r q : dispatch r = Answer q true <-> req_method r = Get /\
  exists seg rest, request_path (req_target r) (str "/query/" ++ seg ++ rest) /\ seg <> [] /\ ~ In 47%N seg /\ further rest /\ q = decode_utf8_lossy (percent_decode seg).
Proof.
  split.
  - intros H. destruct (dispatch_inv r) as (p & P); [congruence |]. rewrite (dispatch_path r p P), route_served in H. unfold served_as in H. destruct (req_method r); [| | discriminate].
    + split; [reflexivity |]. destruct (segment p) as [s x] eqn:E. cbn [fst snd] in H. destruct (text_eqb s (str "query")) eqn:E1.
      * apply text_eqb_true in E1. subst s. destruct (fst (segment x)) as [| c seg] eqn:E2; [discriminate |]. injection H as <-.
        assert (K : ~ In 47%N (c :: seg)) by (rewrite <- E2; apply fst_no_slash).
        destruct (proj1 (second_is p (str "query") x ltac:(noslash) E (c :: seg) K ltac:(discriminate)) E2) as (rest & -> & F).
        exists (c :: seg), rest. split; [exact P |]. split; [discriminate |]. auto.
      * destruct (text_eqb s (str "ws")); [destruct (upgrade r); discriminate |]. destruct (text_eqb s (str "wordlist")); [destruct (fst (segment x)); discriminate |].
        destruct (text_eqb s (str "wordlists.js")); [discriminate |]. destruct (text_eqb s (str "metrics")); discriminate.
    + destruct (text_eqb (fst (segment p)) (str "query")); [| discriminate]. destruct (req_length r) as [n |]; [| discriminate]. destruct (N.leb n 65536); [| discriminate].
      destruct (from_utf8 (req_body r)); discriminate.
  - intros (M & seg & rest & P & Hn & K & F & ->). change (str "/query/" ++ seg ++ rest) with (47%N :: str "query" ++ 47%N :: seg ++ rest) in P.
    rewrite (dispatch_path r _ P), route_served. unfold served_as. rewrite M. rewrite (segment_more (str "query") (seg ++ rest)) by noslash. cbn [fst snd].
    rewrite text_eqb_refl, (segment_further seg rest K F). cbn [fst]. destruct seg; [congruence | reflexivity].
Qed.
Lemma post_served r x : (x = Crash \/ exists q, x = Answer q false) ->
  (dispatch r = x <-> posted r /\ match from_utf8 (req_body r) with Some t => x = Answer t false | None => x = Crash end).
Proof.
  intros X. split.
  - intros H. destruct (dispatch_inv r) as (p & P); [destruct X as [-> | (q & ->)]; congruence |]. rewrite (dispatch_path r p P), route_served in H. unfold served_as in H. unfold posted. destruct (req_method r).
    + exfalso. destruct (segment p) as [s y]. cbn [fst snd] in H. destruct X as [-> | (q & ->)].
      all: destruct (text_eqb s (str "query")); [destruct (fst (segment y)); discriminate |]; destruct (text_eqb s (str "ws")); [destruct (upgrade r); discriminate |];
        destruct (text_eqb s (str "wordlist")); [destruct (fst (segment y)); discriminate |]; destruct (text_eqb s (str "wordlists.js")); [discriminate |]; destruct (text_eqb s (str "metrics")); discriminate.
    + destruct (text_eqb (fst (segment p)) (str "query")) eqn:E; [| destruct X as [-> | (q & ->)]; discriminate].
      apply text_eqb_true in E. apply first_is in E; [| noslash]. destruct E as (rest & -> & F).
      destruct (req_length r) as [n |]; [| destruct X as [-> | (q & ->)]; discriminate]. destruct (N.leb_spec n 65536) as [L | L]; [| destruct X as [-> | (q & ->)]; discriminate].
      split. { split; [reflexivity |]. split; [exists rest; split; [exact P | exact F] | exists n; auto]. }
      destruct (from_utf8 (req_body r)); congruence.
    + destruct X as [-> | (q & ->)]; discriminate.
  - intros ((M & (rest & P & F) & n & Hn & L) & B). change (str "/query" ++ rest) with (47%N :: str "query" ++ rest) in P. rewrite (dispatch_path r _ P), route_served. unfold served_as. rewrite M.
    rewrite (segment_further (str "query") rest) by (solve [noslash] || exact F). cbn [fst]. rewrite text_eqb_refl, Hn, (proj2 (N.leb_le _ _) L). destruct (from_utf8 (req_body r)); congruence.
Qed.
Lemma wordlist_served r name : dispatch r = Wordlist name <-> req_method r = Get /\
  exists rest, request_path (req_target r) (str "/wordlist/" ++ name ++ rest) /\ name <> [] /\ ~ In 47%N name /\ further rest.
Proof.
  split.
  - intros H. destruct (dispatch_inv r) as (p & P); [congruence |]. rewrite (dispatch_path r p P), route_served in H. unfold served_as in H. destruct (req_method r); [| | discriminate].
    + split; [reflexivity |]. destruct (segment p) as [s x] eqn:E. cbn [fst snd] in H. destruct (text_eqb s (str "query")); [destruct (fst (segment x)); discriminate |].
      destruct (text_eqb s (str "ws")); [destruct (upgrade r); discriminate |]. destruct (text_eqb s (str "wordlist")) eqn:E1.
      * apply text_eqb_true in E1. subst s. destruct (fst (segment x)) as [| c seg] eqn:E2; [discriminate |]. injection H as <-.
        assert (K : ~ In 47%N (c :: seg)) by (rewrite <- E2; apply fst_no_slash).
        destruct (proj1 (second_is p (str "wordlist") x ltac:(noslash) E (c :: seg) K ltac:(discriminate)) E2) as (rest & -> & F).
        exists rest. split; [exact P |]. split; [discriminate |]. auto.
      * destruct (text_eqb s (str "wordlists.js")); [discriminate |]. destruct (text_eqb s (str "metrics")); discriminate.
    + destruct (text_eqb (fst (segment p)) (str "query")); [| discriminate]. destruct (req_length r) as [n |]; [| discriminate]. destruct (N.leb n 65536); [| discriminate].
      destruct (from_utf8 (req_body r)); discriminate.
  - intros (M & rest & P & Hn & K & F). change (str "/wordlist/" ++ name ++ rest) with (47%N :: str "wordlist" ++ 47%N :: name ++ rest) in P.
    rewrite (dispatch_path r _ P), route_served. unfold served_as. rewrite M. rewrite (segment_more (str "wordlist") (name ++ rest)) by noslash. cbn [fst snd].
    change (text_eqb (str "wordlist") (str "query")) with false. change (text_eqb (str "wordlist") (str "ws")) with false. change (text_eqb (str "wordlist") (str "wordlist")) with true.
    rewrite (segment_further name rest K F). cbn [fst]. destruct name; [congruence | reflexivity].
Qed.

(** ** Percent-encoded queries *)
Definition in_segment (c : N) : Prop := path_char c /\ ~ In c (str "/?#").
Lemma alnum_segment c : (48 <= c <= 57 \/ 65 <= c <= 90 \/ 97 <= c <= 122)%N -> in_segment c.
Proof.
  intros H. split; [left; exact H | intros [K | [K | [K | []]]]; subst; cbn in H; lia].
Qed.
Lemma pchar_segment c : pchar c -> in_segment c /\ c <> 37%N.
Proof.
  intros [H | H]; [split; [apply alnum_segment, H | lia] |].
  cbn in H. repeat (destruct H as [<- | H]; [split; [split; [apply path_char_iff; reflexivity | not_escape] | discriminate] |]). contradiction.
Qed.
Lemma hex_segment c n : hex c n -> in_segment c.
Proof.
  intros [H | H]; apply nth_error_In in H; cbn in H; repeat (destruct H as [<- | H]; [split; [apply path_char_iff; reflexivity | not_escape] |]); contradiction.
Qed.
Lemma encoded_segment bs t : percent_encoded pchar bs t -> Forall in_segment t.
Proof.
  induction 1 as [| b bs t Hb E IH | b bs t h l x y Hx Hy _ _ _ E IH]; [constructor | constructor; [apply pchar_segment, Hb | exact IH] |].
  constructor; [split; [apply path_char_iff; reflexivity | not_escape] |]. constructor; [exact (hex_segment x h Hx) |]. constructor; [exact (hex_segment y l Hy) | exact IH].
Qed.
Lemma plain_path a rest : Forall (fun c => path_char c /\ ~ In c (str "?#")) a -> (rest = [] \/ exists x, rest = 63%N :: x) ->
  (N.of_nat (length (47%N :: a ++ rest)) <= 65534)%N -> request_path (47%N :: a ++ rest) (47%N :: a).
Proof.
  intros F R L. split; [exact L |]. split.
  { assert (G : Forall (fun c => ~ In c (str "?#")) (47%N :: a)).
    { constructor; [not_escape |]. revert F. apply Forall_impl. tauto. }
    destruct R as [-> | (x & ->)]; [rewrite app_nil_r; apply before_end, G |]. apply (before_stop (str "?#") (47%N :: a) 63%N x); [exact G | left; reflexivity]. }
  split; [constructor; [apply path_char_iff; reflexivity |]; revert F; apply Forall_impl; tauto | eauto].
Qed.
Lemma segment_chars a : Forall in_segment a -> Forall (fun c => path_char c /\ ~ In c (str "?#")) a /\ ~ In 47%N a.
Proof.
  intros F. split; [revert F; apply Forall_impl; intros c [H K]; split; [exact H | intros G; apply K; right; exact G] |].
  intros H. rewrite Forall_forall in F. destruct (F _ H) as [_ K]. apply K. left. reflexivity.
Qed.
Lemma query_target t rest : Forall in_segment t -> (rest = [] \/ exists x, rest = 63%N :: x) -> (N.of_nat (length (str "/query/" ++ t ++ rest)) <= 65534)%N ->
  request_path (str "/query/" ++ t ++ rest) (str "/query/" ++ t ++ []).
Proof.
  intros F R L. destruct (segment_chars t F) as [G _]. rewrite app_nil_r. rewrite app_assoc. rewrite app_assoc in L.
  apply (plain_path (str "query/" ++ t) rest); [| exact R | exact L]. apply Forall_app. split; [| exact G]. repeat (constructor; [split; [apply path_char_iff; reflexivity | not_escape] |]); constructor.
Qed.
Lemma utf8_some t l : in_utf8 t l -> t <> [] -> l <> [].
Proof. intros H K. destruct H as [| c bs t l S U I]; [congruence |]. intros E. apply app_eq_nil in E. exact (utf8_nonempty _ _ U (proj1 E)). Qed.
Lemma encoded_some plain bs t : percent_encoded plain bs t -> bs <> [] -> t <> [].
Proof. intros []; intros K; [congruence | discriminate | discriminate]. Qed.
Lemma get_encoded r q bs t rest : req_method r = Get -> in_utf8 q bs -> q <> [] -> percent_encoded pchar bs t -> req_target r = str "/query/" ++ t ++ rest ->
  (rest = [] \/ exists x, rest = 63%N :: x) -> (N.of_nat (length (req_target r)) <= 65534)%N -> dispatch r = Answer q true.
Proof.
  intros M U Hq E T R L. pose proof (encoded_segment bs t E) as F. apply get_answer. split; [exact M |]. exists t, []. rewrite T in L |- *.
  split; [apply query_target; assumption |]. split; [exact (encoded_some _ _ _ E (utf8_some _ _ U Hq)) |]. split; [apply segment_chars, F |]. split; [left; reflexivity |].
  rewrite (decode_encoded pchar bs t); [symmetry; apply lossy_yes, U | | exact E]. intros b Hb. apply pchar_segment, Hb.
Qed.
Lemma get_damaged r q bs t rest : req_method r = Get -> in_damaged_utf8 q bs -> q <> [] -> percent_encoded pchar bs t -> req_target r = str "/query/" ++ t ++ rest ->
  (rest = [] \/ exists x, rest = 63%N :: x) -> (N.of_nat (length (req_target r)) <= 65534)%N -> dispatch r = Answer q true.
Proof.
  intros M U Hq E T R L. pose proof (encoded_segment bs t E) as F. apply get_answer. split; [exact M |]. exists t, []. rewrite T in L |- *.
  split; [apply query_target; assumption |]. split; [exact (encoded_some _ _ _ E (damaged_some _ _ U Hq)) |]. split; [apply segment_chars, F |]. split; [left; reflexivity |].
  rewrite (decode_encoded pchar bs t); [symmetry; apply lossy_damaged, U | | exact E]. intros b Hb. apply pchar_segment, Hb.
Qed.
Lemma component_encoded q : Forall scalar q -> percent_encoded pchar (flat_map utf8_encode q) (encode_uri_component q).
Proof.
  assert (X : forall bs l t, Forall (fun b => (b < 256)%N) bs -> percent_encoded pchar l t -> percent_encoded pchar (bs ++ l) (flat_map escape bs ++ t)).
  { intros bs l t F H. induction F as [| b bs Lb F IH]; [exact H |]. destruct (byte_halves b Lb) as (H1 & H2 & E). cbn [flat_map app escape]. eapply pe_escape; [apply hex_digit_hex, H1 | apply hex_digit_hex, H2 | exact H1 | exact H2 | exact E | exact IH]. }
  induction 1 as [| c q Sc S IH]; [constructor |]. unfold encode_uri_component, encode_with in *. cbn [flat_map]. destruct (is_alnum c || uri_mark c)%bool eqn:K.
  - assert (P : pchar c /\ (c < 128)%N).
    { apply Bool.orb_true_iff in K. destruct K as [K | K]; [apply alnum_iff in K; split; [left; exact K | lia] |]. apply one_of_iff in K. cbn in K.
      repeat (destruct K as [<- | K]; [split; [right; cbn; tauto | reflexivity] |]). contradiction. }
    unfold utf8_encode at 1. rewrite (proj2 (N.ltb_lt _ _) (proj2 P)). cbn [app]. apply pe_plain; [apply P | exact IH].
  - apply X; [apply Forall_forall; intros b Hb; exact (encode_bytes c b Sc Hb) | exact IH].
Qed.
Lemma get_component r q : req_method r = Get -> Forall scalar q -> q <> [] -> req_target r = str "/query/" ++ encode_uri_component q ->
  (N.of_nat (length (req_target r)) <= 65534)%N -> dispatch r = Answer q true.
Proof.
  intros M S Hq T L. apply (get_encoded r q (flat_map utf8_encode q) (encode_uri_component q) []); [exact M | apply encoded_in, S | exact Hq | apply component_encoded, S | rewrite app_nil_r; exact T | left; reflexivity | exact L].
Qed.
(** ** Downloads *)
Lemma download_iff name : (exists r, dispatch r = Wordlist name) <-> name <> [] /\ Forall in_segment name /\ (N.of_nat (length name) <= 65524)%N.
Proof.
  split.
  - intros (r & H). apply wordlist_served in H. destruct H as (_ & rest & (L & B & F & _) & Hn & K & _). split; [exact Hn |]. destruct (before_parts _ _ _ B) as (x & E & _).
    split.
    + apply Forall_app in F. destruct F as [_ F]. apply Forall_app in F. destruct F as [F _].
      assert (G : Forall (fun c => ~ In c (str "?#")) (str "/wordlist/" ++ name ++ rest)) by (remember (str "/wordlist/" ++ name ++ rest) as y; destruct B; assumption).
      apply Forall_app in G. destruct G as [_ G]. apply Forall_app in G. destruct G as [G _]. rewrite Forall_forall in F, G |- *. intros c Hc. split; [exact (F c Hc) |].
      intros [X | X]; [subst c; exact (K Hc) | exact (G c Hc X)].
    + rewrite E, !app_length in L. change (length (str "/wordlist/")) with 10 in L. lia.
  - intros (Hn & F & L). destruct (segment_chars name F) as [G K]. exists (mkRequest Get (str "/wordlist/" ++ name) None [] false). apply wordlist_served. cbn [req_method req_target]. split; [reflexivity |]. exists [].
    split; [| split; [exact Hn |]; split; [exact K | left; reflexivity]]. rewrite <- (app_nil_r (str "/wordlist/" ++ name)) at 1. rewrite (app_nil_r name).
    apply (plain_path (str "wordlist/" ++ name) []); [| left; reflexivity |].
    + apply Forall_app. split; [| exact G]. repeat (constructor; [split; [apply path_char_iff; reflexivity | not_escape] |]); constructor.
    + rewrite app_nil_r. cbn [length]. rewrite app_length. change (length (str "wordlist/")) with 9. lia.
Qed.
Lemma segment_char_iff c : segment_char c <-> in_segment c.
Proof.
  unfold segment_char, in_segment. split; intros [H K]; (split; [exact H |]).
  - intros [X | [X | [X | []]]]; [apply K; symmetry; exact X | |]; subst c; apply path_char_iff in H; discriminate H.
  - intros X. apply K. left. symmetry. exact X.
Qed.
Lemma download name : (exists r, dispatch r = Wordlist name) <-> name <> [] /\ Forall segment_char name /\ (N.of_nat (length name) <= 65524)%N.
Proof.
  rewrite download_iff. split; intros (H & F & L); (split; [exact H |]; split; [| exact L]); revert F; apply Forall_impl; intros c; apply segment_char_iff.
Qed.
Lemma address_plain t : Forall scalar t -> Forall (fun c => (33 <= c <= 126)%N /\ ~ In c [34; 60; 62; 92; 94; 96; 123; 124; 125]%N) (address_of t).
Proof.
  intros S. rewrite (address_uri t S). revert t S. apply address_chars; [intros c H; split; [lia |]; intros K; repeat (destruct K as [<- | K]; [lia |]); contradiction |].
  cbn. repeat (constructor; [split; [lia | intros K; repeat (destruct K as [K | K]; [discriminate K |]); contradiction] |]). constructor.
Qed.
