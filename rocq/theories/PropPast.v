(** Property C96: iterators incremented past the end. *)
From Coq Require Import ZArith QArith String List Bool Lia.
From Verif Require Import Base BaseLemmas Mat GridMapMath GridIter CostMap Iterators Spec GeoLemmas IterProofs LineProofs PropOutside Samples.
Import ListNotations.
Open Scope Z_scope.

Section Past.
Context {E : Env}.

Lemma iter_S {A} (f : A -> A) k x : Nat.iter (S k) f x = f (Nat.iter k f x).
Proof. reflexivity. Qed.

(** A counter that stops at its last value. *)
Lemma stuck {A} (f : A -> A) (st : Z -> bool -> A) N x : 0 < N -> x = st 0 false ->
  (forall j, 0 <= j -> j + 1 < N -> f (st j false) = st (j + 1) false) ->
  (forall b, f (st (N - 1) b) = st (N - 1) true) ->
  forall k : nat, Nat.iter k f x = st (Z.min (Z.of_nat k) (N - 1)) (N <=? Z.of_nat k).
Proof.
  intros HN -> Hs He. induction k as [|k IH].
  - cbn [Nat.iter nat_rect]. rewrite Z.min_l by lia. destruct (Z.leb_spec N (Z.of_nat 0)); [lia|reflexivity].
  - rewrite iter_S, IH. destruct (Z.leb_spec N (Z.of_nat k)).
    + rewrite Z.min_r, He, Z.min_r by lia. destruct (Z.leb_spec N (Z.of_nat (S k))); [reflexivity|lia].
    + destruct (Z.eq_dec (Z.of_nat k) (N - 1)) as [Q|Q].
      * rewrite Z.min_r, He, Z.min_r by lia. destruct (Z.leb_spec N (Z.of_nat (S k))); [reflexivity|lia].
      * rewrite Z.min_l, Hs, Z.min_l by lia. destruct (Z.leb_spec N (Z.of_nat (S k))); [lia|].
        f_equal. lia.
Qed.

(** CostMapIterator: after k increments the iterator is past the end exactly when
    k is at least the number of cells, and it stands on the k-th cell of the
    loop, or on the last one for good. *)
Theorem C96_map n s vs : in_range n s -> map_visits n s = Ok vs ->
  exists it0, map_iter_new n s = Ok it0 /\
  forall k, let it := Nat.iter k map_iter_next it0 in
    mi_past it = (length vs <=? k)%nat /\
    nth_error vs (Nat.min k (length vs - 1)) = Some (mi_index it) /\
    (mi_past it = true -> map_iter_next it = it).
Proof.
  intros Hs V. rewrite map_visits_ok in V by auto. injection V as <-.
  destruct (map_iter_new_ok n s Hs) as (e & -> & _). eexists; split; [reflexivity|].
  assert (0 < fst n /\ 0 < snd n) as [H0 H1] by (destruct Hs; lia).
  assert (P : 0 < fst n * snd n) by nia. set (N := fst n * snd n) in *.
  assert (L : length (visit_list n s) = Z.to_nat N) by (unfold visit_list; rewrite map_length; apply zseq_length).
  pose (st := fun k b => MapIter n s e (wrap_index (kth n k) n s) b).
  assert (He : forall b, map_iter_next (st (N - 1) b) = st (N - 1) true).
  { intros b. unfold st, map_iter_next; cbn [mi_index mi_size mi_start mi_end]. rewrite increment_kth by (auto; lia).
    fold N. destruct (Z.ltb_spec (N - 1 + 1) N); [lia|reflexivity]. }
  intros k. cbv zeta. rewrite (stuck map_iter_next st N); auto.
  - rewrite L. unfold st at 1 2. cbn [mi_past mi_index]. repeat split.
    + destruct (Z.leb_spec N (Z.of_nat k)), (Nat.leb_spec (Z.to_nat N) k); auto; lia.
    + unfold visit_list. fold N. rewrite nth_error_map'.
      replace (Nat.min k (Z.to_nat N - 1)) with (Z.to_nat (Z.min (Z.of_nat k) (N - 1))) by lia.
      rewrite zseq_nth by lia. reflexivity.
    + unfold st at 1. cbn [mi_past]. intros K. rewrite K. apply Z.leb_le in K. rewrite Z.min_r by lia. apply He.
  - unfold st. f_equal. unfold kth. rewrite Z.div_0_l, Z.mod_0_l by lia. symmetry. now apply wrap_zero.
  - intros j J1 J2. unfold st, map_iter_next; cbn [mi_index mi_size mi_start mi_end]. rewrite increment_kth by (auto; lia).
    fold N. destruct (Z.ltb_spec (j + 1) N); [reflexivity|lia].
Qed.

(** The states of an iterator over a window. *)
Definition sub_state n s tl sn (k : Z) (b : bool) : sub_iter :=
  SubIter n s sn tl (any_cell n s tl (kth sn k)) (kth sn k) b.

Lemma sub_state_new n s tl sn : in_range n s -> in_range n tl -> 0 < fst sn -> 0 < snd sn ->
  sub_iter_new n s tl sn = sub_state n s tl sn 0 false.
Proof.
  intros Hs Ht H1 H2. unfold sub_state, sub_iter_new. unfold kth. rewrite Z.div_0_l, Z.mod_0_l by lia. f_equal.
  unfold any_cell, window_cell; cbn [fst snd]. destruct Ht. destruct tl; cbn [fst snd] in *.
  rewrite !Z.add_0_r, !Z.mod_small by lia. now destruct (idx_eqb s (0, 0)).
Qed.

Lemma sub_state_next n s tl sn j b : in_range n s -> in_range n tl -> 0 < fst sn -> 0 < snd sn ->
  0 <= j -> j + 1 < fst sn * snd sn ->
  sub_iter_next (sub_state n s tl sn j b) = sub_state n s tl sn (j + 1) false.
Proof.
  intros Hs Ht H1 H2 J1 J2. unfold sub_state, sub_iter_next, increment_submap.
  cbn [sb_sindex sb_index sb_sstart sb_ssize sb_size sb_start].
  rewrite kth_next by auto.
  assert (in_range sn (kth sn (j + 1))) as R by (apply kth_in_range; lia).
  rewrite (proj2 (index_in_range_iff _ _)) by auto. cbn [negb]. rewrite any_wrap by auto. reflexivity.
Qed.

Lemma sub_state_last n s tl sn b : 0 < fst sn -> 0 < snd sn ->
  sub_iter_next (sub_state n s tl sn (fst sn * snd sn - 1) b) = sub_state n s tl sn (fst sn * snd sn - 1) true.
Proof.
  intros H1 H2. unfold sub_state, sub_iter_next, increment_submap.
  cbn [sb_sindex sb_index sb_sstart sb_ssize sb_size sb_start].
  rewrite kth_next by auto. rewrite kth_out by lia. reflexivity.
Qed.

(** SubmapIterator: likewise, over any window. *)
Theorem C96_sub n s tl sn vs : in_range n s -> in_range n tl -> 0 < fst sn -> 0 < snd sn ->
  sub_visits n s tl sn = Ok vs ->
  forall k, let it := Nat.iter k sub_iter_next (sub_iter_new n s tl sn) in
    sb_past it = (length vs <=? k)%nat /\
    nth_error vs (Nat.min k (length vs - 1)) = Some (sb_index it, sb_sindex it) /\
    (sb_past it = true -> sub_iter_next it = it).
Proof.
  intros Hs Ht H0 H1 V. rewrite sub_visits_any in V by auto. injection V as <-.
  assert (P : 0 < fst sn * snd sn) by nia. set (N := fst sn * snd sn) in *.
  assert (L : length (any_list n s tl sn) = Z.to_nat N) by (unfold any_list; rewrite map_length; apply zseq_length).
  intros k. cbv zeta. rewrite (stuck sub_iter_next (sub_state n s tl sn) N); auto.
  - rewrite L. cbn [sub_state sb_past sb_index sb_sindex]. repeat split.
    + destruct (Z.leb_spec N (Z.of_nat k)), (Nat.leb_spec (Z.to_nat N) k); auto; lia.
    + unfold any_list. fold N. rewrite nth_error_map'.
      replace (Nat.min k (Z.to_nat N - 1)) with (Z.to_nat (Z.min (Z.of_nat k) (N - 1))) by lia.
      rewrite zseq_nth by lia. reflexivity.
    + intros K. rewrite K. apply Z.leb_le in K. rewrite Z.min_r by lia. now apply sub_state_last.
  - now apply sub_state_new.
  - intros j J1 J2. now apply sub_state_next.
  - intros b. now apply sub_state_last.
Qed.

Lemma zseq_snoc k : forall a, zseq_aux a (S k) = zseq_aux a k ++ [a + Z.of_nat k].
Proof.
  induction k as [|k IH]; intros a.
  - cbn. now rewrite Z.add_0_r.
  - change (zseq_aux a (S (S k))) with (a :: zseq_aux (a + 1) (S k)). rewrite IH. cbn [zseq_aux app].
    do 3 f_equal. lia.
Qed.

(** The states that the constructor and operator++ of a circle, ellipse or
    polygon iterator can produce; [ins] is its isInside. *)
Inductive shape_reach (ins : idx -> res bool) n s tl sn : sub_iter -> Prop :=
| shape_new it : filt_new ins n s tl sn = Ok it -> shape_reach ins n s tl sn it
| shape_step it it' : shape_reach ins n s tl sn it -> filt_next ins it = Ok it' -> shape_reach ins n s tl sn it'.

Definition sub_okay n s tl sn (it : sub_iter) : Prop :=
  exists k, 0 <= k < fst sn * snd sn /\ it = sub_state n s tl sn k (sb_past it) /\
    (sb_past it = true -> k = fst sn * snd sn - 1).

Lemma okay_next n s tl sn it : in_range n s -> in_range n tl -> 0 < fst sn -> 0 < snd sn ->
  sub_okay n s tl sn it -> sub_okay n s tl sn (sub_iter_next it).
Proof.
  intros Hs Ht H1 H2 (k & Hk & -> & Hp). destruct (Z.eq_dec k (fst sn * snd sn - 1)) as [->|K].
  - rewrite sub_state_last by auto. exists (fst sn * snd sn - 1). repeat split; lia.
  - rewrite sub_state_next by (auto; lia). exists (k + 1). repeat split; try lia. discriminate.
Qed.

Lemma okay_seek ins n s tl sn : in_range n s -> in_range n tl -> 0 < fst sn -> 0 < snd sn ->
  forall f it it', sub_okay n s tl sn it -> seek ins f it = Ok it' -> sub_okay n s tl sn it'.
Proof.
  intros Hs Ht H1 H2. induction f as [|f IH]; cbn [seek]; intros it it' Hi K; [discriminate|].
  destruct (sb_past it) eqn:P; [now injection K as <-|].
  destruct (ins (sb_index it)) as [[]| |]; cbn [rbind] in K; try discriminate.
  - now injection K as <-.
  - eapply IH; [|exact K]. now apply okay_next.
Qed.

Lemma okay_filt ins n s tl sn it it' : in_range n s -> in_range n tl -> 0 < fst sn -> 0 < snd sn ->
  sub_okay n s tl sn it -> filt_next ins it = Ok it' -> sub_okay n s tl sn it'.
Proof.
  intros Hs Ht H1 H2 Hi K. unfold filt_next in K. pose proof (okay_next n s tl sn it Hs Ht H1 H2 Hi) as Hn.
  destruct (sb_past (sub_iter_next it)) eqn:P; [now injection K as <-|].
  eapply okay_seek; eauto.
Qed.

Lemma past_stays it : sb_past (sub_iter_next it) = true -> sub_iter_next (sub_iter_next it) = sub_iter_next it.
Proof.
  intros K. assert (S : sub_iter_next it = SubIter (sb_size it) (sb_start it) (sb_ssize it) (sb_sstart it) (sb_index it) (sb_sindex it) true /\
    increment_submap (sb_sindex it) (sb_index it) (sb_sstart it) (sb_ssize it) (sb_size it) (sb_start it) = (false, sb_sindex it, sb_index it)).
  { unfold sub_iter_next in *. unfold increment_submap in *. destruct (negb (index_in_range _ _)); [auto|discriminate]. }
  destruct S as [S I]. rewrite S. unfold sub_iter_next.
  cbn [sb_sindex sb_index sb_sstart sb_ssize sb_size sb_start]. rewrite I. reflexivity.
Qed.

(** Circle, ellipse and polygon iterators, whatever their shape and window: ++ does
    not change a past-the-end iterator. *)
Theorem C96_shapes ins n s tl sn it : shape_reach ins n s tl sn it -> sb_past it = true ->
  filt_next ins it = Ok it.
Proof.
  assert (F : forall x y, filt_next ins x = Ok y -> sb_past y = true -> exists z, y = sub_iter_next z).
  { assert (SK : forall f x z y, x = sub_iter_next z -> seek ins f x = Ok y -> exists z, y = sub_iter_next z).
    { induction f as [|f IH]; cbn [seek]; intros x z y Hx K; [discriminate|].
      destruct (sb_past x); [injection K as <-; eauto|].
      destruct (ins (sb_index x)) as [[]| |]; cbn [rbind] in K; try discriminate.
      - injection K as <-; eauto.
      - eapply IH; [reflexivity|exact K]. }
    intros x y K _. unfold filt_next in K. destruct (sb_past (sub_iter_next x)); [injection K as <-; eauto|].
    eapply SK; [reflexivity|exact K]. }
  intros R Hp. assert (exists z, it = sub_iter_next z) as [z ->].
  { destruct R as [it K|it it' _ K]; [|eauto]. unfold filt_new in K.
    destruct (ins _) as [[]| |]; cbn [rbind] in K; try discriminate; [|eauto].
    injection K as <-. discriminate. }
  unfold filt_next. rewrite past_stays, Hp by auto. reflexivity.
Qed.

(** Its index is then the last cell of its window, inside the shape or not. *)
Theorem C96_shapes_cell ins n s tl sn it : in_range n s -> in_range n tl -> 0 < fst sn -> 0 < snd sn ->
  shape_reach ins n s tl sn it -> sb_past it = true ->
  exists vs, sub_visits n s tl sn = Ok (vs ++ [(sb_index it, sb_sindex it)]) /\
    sb_sindex it = (fst sn - 1, snd sn - 1).
Proof.
  intros Hs Ht H1 H2 R Hp.
  assert (sub_okay n s tl sn it) as (k & Hk & Hi & Hl).
  { clear Hp. induction R as [it K|it it' _ IH K].
    - unfold filt_new in K. assert (O : sub_okay n s tl sn (sub_iter_new n s tl sn)).
      { exists 0. rewrite sub_state_new by auto. repeat split; try nia. discriminate. }
      destruct (ins _) as [[]| |]; cbn [rbind] in K; try discriminate.
      + now injection K as <-.
      + eapply okay_filt; eauto.
    - eapply okay_filt; eauto. }
  specialize (Hl Hp). subst k. rewrite Hp in Hi.
  - rewrite sub_visits_any by auto. subst it. cbn [sub_state sb_index sb_sindex].
    set (N := fst sn * snd sn) in *.
    assert (ZS : zseq N = zseq (N - 1) ++ [N - 1]).
    { unfold zseq. replace (Z.to_nat N) with (S (Z.to_nat (N - 1))) by lia.
      rewrite zseq_snoc, Z.add_0_l, Z2Nat.id by lia. reflexivity. }
    unfold any_list. fold N. rewrite ZS, map_app. cbn [map]. eexists; split; [reflexivity|].
    unfold kth. f_equal.
    + symmetry. apply Z.div_unique_pos with (r := snd sn - 1); unfold N; nia.
    + symmetry. apply Z.mod_unique_pos with (q := fst sn - 1); unfold N; nia.
Qed.

(** LineIterator: past the end after one increment per cell, but the index keeps
    moving, one cell further from the end of the line with each ++. *)
Definition far (a b : idx) : Z := Z.max (Z.abs (fst b - fst a)) (Z.abs (snd b - snd a)).

Lemma line_next_state a b k : a <> b -> 0 <= k -> line_next (line_state a b k) = line_state a b (k + 1).
Proof.
  intros NE Hk. set (dx := Z.abs (fst b - fst a)). set (dy := Z.abs (snd b - snd a)).
  assert (NZ : 0 < Z.max dx dy).
  { destruct (Z.eq_dec (Z.max dx dy) 0); [|lia]. contradict NE. destruct a, b; cbn [fst snd] in *; f_equal; lia. }
  unfold line_next, line_state, line_cell, line_new. fold dx dy.
  destruct (dy <=? dx) eqn:K; cbn [li_ncells li_inc1 li_inc2 li_den li_add li_num li_index li_icell].
  - apply Z.leb_le in K. destruct (minor_step dx dy k) as [M1 M2]; try lia.
    destruct (dx <=? (Z.quot dx 2 + k * dy) mod dx + dy) eqn:K2.
    + destruct (M1 eq_refl) as [-> ->]. cbn [fst snd]. f_equal. f_equal; lia.
    + destruct (M2 eq_refl) as [-> ->]. cbn [fst snd]. f_equal. f_equal; lia.
  - apply Z.leb_gt in K. destruct (minor_step dy dx k) as [M1 M2]; try lia.
    destruct (dy <=? (Z.quot dy 2 + k * dx) mod dy + dx) eqn:K2.
    + destruct (M1 eq_refl) as [-> ->]. cbn [fst snd]. f_equal. f_equal; lia.
    + destruct (M2 eq_refl) as [-> ->]. cbn [fst snd]. f_equal. f_equal; lia.
Qed.

Lemma line_zero a b : a <> b -> line_new a b = line_state a b 0.
Proof.
  intros NE. set (dx := Z.abs (fst b - fst a)). set (dy := Z.abs (snd b - snd a)).
  assert (NZ : 0 < Z.max dx dy).
  { destruct (Z.eq_dec (Z.max dx dy) 0); [|lia]. contradict NE. destruct a, b; cbn [fst snd] in *; f_equal; lia. }
  assert (M : forall D A, 0 < D -> 0 <= A <= D -> minor D A 0 = 0 /\ (Z.quot D 2 + 0 * A) mod D = Z.quot D 2).
  { intros D A HD HA. unfold minor. rewrite Z.mul_0_l, Z.add_0_r, Z.quot_div_nonneg by lia.
    assert (0 <= D / 2 < D) by (split; [apply Z.div_pos; lia|apply Z.div_lt; lia]).
    split; [now apply Z.div_small|now apply Z.mod_small]. }
  unfold line_state, line_new, line_cell. fold dx dy.
  destruct (dy <=? dx) eqn:K; cbn [li_ncells li_inc1 li_inc2 li_den li_add].
  - apply Z.leb_le in K. destruct (M dx dy) as [-> ->]; try lia. f_equal. destruct a; cbn [fst snd]; f_equal; lia.
  - apply Z.leb_gt in K. destruct (M dy dx) as [-> ->]; try lia. f_equal. destruct a; cbn [fst snd]; f_equal; lia.
Qed.

Lemma minor_beyond D A j : 0 < D -> 0 <= A <= D -> 0 <= j -> 0 <= minor D A (D + j) - A <= j.
Proof.
  intros HD HA Hj. unfold minor. replace (Z.quot D 2 + (D + j) * A) with (Z.quot D 2 + j * A + A * D) by ring.
  rewrite Z.div_add by lia. rewrite Z.quot_div_nonneg by lia.
  assert (0 <= D / 2 < D) by (split; [apply Z.div_pos; lia|apply Z.div_lt; lia]).
  set (h := D / 2) in *. clearbody h.
  assert (0 <= (h + j * A) / D) by (apply Z.div_pos; nia).
  assert ((h + j * A) / D < j + 1) by (apply Z.div_lt_upper_bound; nia). lia.
Qed.

Theorem C96_line a b (k : nat) : let it := Nat.iter k line_next (line_new a b) in
  line_past it = (far a b <? Z.of_nat k) /\
  (line_past it = true -> far b (li_index it) = Z.of_nat k - far a b).
Proof.
  cbv zeta. destruct (idx_eqb a b) eqn:EQ; [apply idx_eqb_eq in EQ; subst b|].
  - assert (far a a = 0) as -> by (unfold far; lia).
    assert (S : Nat.iter k line_next (line_new a a) =
      LineIter (fst a + Z.of_nat k, snd a + Z.of_nat k) (Z.of_nat k) 1 (0, 1) (1, 0) 0 0 0).
    { induction k as [|k IH].
      - cbn [Nat.iter nat_rect]. unfold line_new. rewrite !Z.sub_diag, !Z.leb_refl. destruct a. cbn. now rewrite !Z.add_0_r.
      - rewrite iter_S, IH. unfold line_next. cbn [li_num li_add li_den li_index li_inc1 li_inc2 li_icell li_ncells].
        change (0 <=? 0 + 0) with true. cbn [fst snd]. f_equal; [f_equal; lia|lia]. }
    rewrite S. unfold line_past. cbn [li_ncells li_icell li_index]. split.
    + destruct (Z.leb_spec 1 (Z.of_nat k)), (Z.ltb_spec 0 (Z.of_nat k)); auto; lia.
    + intros _. unfold far. cbn [fst snd]. lia.
  - assert (NE : a <> b) by (intros Q; apply idx_eqb_eq in Q; congruence).
    assert (S : Nat.iter k line_next (line_new a b) = line_state a b (Z.of_nat k)).
    { induction k as [|k IH]; [apply line_zero; auto|].
      rewrite iter_S, IH, line_next_state by (auto; lia). f_equal. lia. }
    rewrite S. set (dx := Z.abs (fst b - fst a)). set (dy := Z.abs (snd b - snd a)).
    assert (NZ : 0 < Z.max dx dy).
    { destruct (Z.eq_dec (Z.max dx dy) 0); [|lia]. contradict NE. destruct a, b; cbn [fst snd] in *; f_equal; lia. }
    assert (NC : li_ncells (line_new a b) = far a b + 1).
    { unfold line_new, far. fold dx dy. destruct (dy <=? dx) eqn:K; cbn [li_ncells]; lia. }
    unfold line_past, line_state. cbn [li_ncells li_icell li_index]. rewrite NC. split.
    + destruct (Z.leb_spec (far a b + 1) (Z.of_nat k)), (Z.ltb_spec (far a b) (Z.of_nat k)); auto; lia.
    + intros K. apply Z.leb_le in K. set (j := Z.of_nat k - far a b).
      replace (Z.of_nat k) with (far a b + j) by lia. assert (0 <= j) by lia. clearbody j. clear K S NC.
      unfold line_cell. fold dx dy. unfold far at 1. unfold far. fold dx dy.
      destruct (Z.leb_spec dy dx).
      * replace (Z.max dx dy) with dx by lia. pose proof (minor_beyond dx dy j ltac:(lia) ltac:(lia) ltac:(lia)). cbn [fst snd].
        set (q := minor dx dy (dx + j)) in *. clearbody q.
        destruct (Z.leb_spec (fst a) (fst b)), (Z.leb_spec (snd a) (snd b)); lia.
      * replace (Z.max dx dy) with dy by lia. pose proof (minor_beyond dy dx j ltac:(lia) ltac:(lia) ltac:(lia)). cbn [fst snd].
        set (q := minor dy dx (dy + j)) in *. clearbody q.
        destruct (Z.leb_spec (fst a) (fst b)), (Z.leb_spec (snd a) (snd b)); lia.
Qed.

(** So it leaves every map: as many increments past the end as the longer side. *)
Theorem C96_line_leaves a b n (k : nat) : in_range n b -> far a b + Z.max (fst n) (snd n) <= Z.of_nat k ->
  let it := Nat.iter k line_next (line_new a b) in line_past it = true /\ ~ in_range n (li_index it).
Proof.
  intros Hb Hk. cbv zeta. destruct (C96_line a b k) as [P D]. destruct Hb as [B0 B1].
  rewrite P in *. assert (K : (far a b <? Z.of_nat k) = true) by (apply Z.ltb_lt; lia).
  split; auto. specialize (D K). intros [I0 I1]. unfold far at 1 in D. lia.
Qed.

(** SpiralIterator: neither ++ nor * may be used past the end. *)
Theorem C96_spiral m c R it : spiral_past it = true ->
  spiral_next m c R it = Fault OutOfBounds /\ spiral_cur it = Fault OutOfBounds.
Proof.
  unfold spiral_past, spiral_next, spiral_cur. destruct (sp_points it); [auto|]. now rewrite andb_false_r.
Qed.

End Past.
Print Assumptions C96_map.
Print Assumptions C96_sub.
Print Assumptions C96_shapes.
Print Assumptions C96_shapes_cell.
Print Assumptions C96_line.
Print Assumptions C96_line_leaves.
Print Assumptions C96_spiral.

(** A moved 5 x 4 map whose loop ends at the cell (2, 1): after 20 and after 100
    increments the iterator is past the end there. A circle iterator ends on the
    last cell of its window, which is not in the circle. A line from (0, 0) to
    (4, 1) leaves the map with the first increment past the end, and a line of
    one cell leaves it diagonally. *)
Example C96_case :
  (exists it0, map_iter_new (E := exact_wrap) (size sample) (start sample) = Ok it0 /\
     let at_ k := let it := Nat.iter k map_iter_next it0 in (mi_index it, mi_past it) in
     at_ 19%nat = ((2, 1), false) /\ at_ 20%nat = ((2, 1), true) /\ at_ 100%nat = ((2, 1), true)) /\
  (let c := ((1#2), (-1#1))%Q in let R := (3#10)%Q in
   circle_window (E := exact_wrap) sample0 c R = ((1, 1), (3, 2)) /\
   let ins := circle_inside (E := exact_wrap) sample0 c R in
   exists it, shape_reach ins (size sample0) (start sample0) (1, 1) (3, 2) it /\
     sb_past it = true /\ filt_next ins it = Ok it /\ sb_index it = (3, 2) /\ ins (sb_index it) = Ok false) /\
  (let it := Nat.iter 5 line_next (line_new (0, 0) (4, 1)) in
   line_past it = true /\ li_index it = (5, 1) /\ ~ in_range (size sample) (li_index it)) /\
  (let it := Nat.iter 1 line_next (line_new (4, 3) (4, 3)) in
   line_past it = true /\ li_index it = (5, 4)).
Proof.
  split; [|split; [|split]].
  - destruct (map_iter_new (E := exact_wrap) (size sample) (start sample)) as [it0| |] eqn:K; vm_compute in K; try discriminate.
    injection K as <-. eexists; split; [reflexivity|]. vm_compute. auto.
  - cbv zeta. split; [vm_compute; reflexivity|].
    exists (SubIter (5, 4) (0, 0) (3, 2) (1, 1) (3, 2) (2, 1) true). split; [|vm_compute; auto].
    apply (shape_step _ _ _ _ _ (SubIter (5, 4) (0, 0) (3, 2) (1, 1) (2, 2) (1, 1) false)); [|vm_compute; reflexivity].
    apply (shape_step _ _ _ _ _ (SubIter (5, 4) (0, 0) (3, 2) (1, 1) (2, 1) (1, 0) false)); [|vm_compute; reflexivity].
    apply shape_new. vm_compute. reflexivity.
  - vm_compute. split; [reflexivity|]. split; [reflexivity|]. intros [[_ K] _]. discriminate.
  - vm_compute. auto.
Qed.

(** A spiral over the same map, run to its end: one more ++ is undefined. *)
Example C96_spiral_case :
  exists it, spiral_new (E := exact_wrap) sample0 ((1#2), (-1#1))%Q (1#10) = Ok it /\
    exists it', spiral_next (E := exact_wrap) sample0 ((1#2), (-1#1))%Q (1#10) it = Ok it' /\ spiral_past it' = true /\
    spiral_next (E := exact_wrap) sample0 ((1#2), (-1#1))%Q (1#10) it' = Fault OutOfBounds.
Proof.
  exists (Spiral (2, 2) 1 0 [(2, 2)]). split; [vm_compute; reflexivity|].
  exists (Spiral (2, 2) 1 1 []). split; [vm_compute; reflexivity|]. vm_compute. auto.
Qed.
