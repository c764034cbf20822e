(** GridMapMath in exact arithmetic. *)
From Coq Require Import ZArith QArith Qround Qabs Qreduction Qfield String List Bool Lia Lqa.
From Coq Require Import ZifyBool.
From Verif Require Import Base Mat GridMapMath GridIter CostMap BaseLemmas Spec.
Import ListNotations.
Open Scope Z_scope.

(* ------------------------------------------------------------------ *)
(** ** Index arithmetic *)

Lemma wrap1_mod i n : 0 < n -> wrap1 i n = i mod n.
Proof.
  intros H. unfold wrap1. destruct (Z.ltb_spec i 0) as [Hi|Hi].
  - assert (0 <= i + (Z.quot (- i) n + 1) * n).
    { rewrite Z.quot_div_nonneg by lia. pose proof (Z_div_mod_eq_full (-i) n).
      pose proof (Z.mod_pos_bound (-i) n H). nia. }
    rewrite Z.rem_mod_nonneg by lia. apply Z.mod_add. lia.
  - apply Z.rem_mod_nonneg; lia.
Qed.

Lemma idx_eqb_eq a b : idx_eqb a b = true <-> a = b.
Proof.
  destruct a, b; unfold idx_eqb; simpl. rewrite andb_true_iff, !Z.eqb_eq. 
  split; [intros [-> ->]; auto|intros H; inversion H; auto].
Qed.

Lemma index_in_range_iff i n : index_in_range i n = true <-> in_range n i.
Proof. unfold index_in_range, in_range. lia. Qed.

Lemma unwrap_index_mod b n s : in_range n b -> in_range n s ->
  unwrap_index b n s = ((fst b - fst s) mod fst n, (snd b - snd s) mod snd n).
Proof.
  intros Hb Hs. unfold in_range in *. unfold unwrap_index. destruct (idx_eqb s (0, 0)) eqn:K.
  - apply idx_eqb_eq in K. subst s. destruct b; simpl in *. rewrite !Z.sub_0_r.
    rewrite !Z.mod_small by lia. reflexivity.
  - rewrite !wrap1_mod by lia. reflexivity.
Qed.

Lemma wrap_index_mod u n s : in_range n u -> in_range n s ->
  wrap_index u n s = ((fst u + fst s) mod fst n, (snd u + snd s) mod snd n).
Proof.
  intros Hb Hs. unfold in_range in *. unfold wrap_index. destruct (idx_eqb s (0, 0)) eqn:K.
  - apply idx_eqb_eq in K. subst s. destruct u; simpl in *. rewrite !Z.add_0_r.
    rewrite !Z.mod_small by lia. reflexivity.
  - rewrite !wrap1_mod by lia. reflexivity.
Qed.

Lemma mod_roundtrip a s n : 0 < n -> 0 <= a < n -> ((a + s) mod n - s) mod n = a.
Proof.
  intros. rewrite Zminus_mod_idemp_l. replace (a + s - s) with a by lia. now apply Z.mod_small.
Qed.

Lemma mod_roundtrip' a s n : 0 < n -> 0 <= a < n -> ((a - s) mod n + s) mod n = a.
Proof.
  intros. rewrite Zplus_mod_idemp_l. replace (a - s + s) with a by lia. now apply Z.mod_small.
Qed.

Lemma unwrap_in_range b n s : in_range n b -> in_range n s -> in_range n (unwrap_index b n s).
Proof.
  intros Hb Hs. rewrite unwrap_index_mod by auto. unfold in_range in *; simpl.
  split; apply Z.mod_pos_bound; lia.
Qed.

Lemma wrap_in_range u n s : in_range n u -> in_range n s -> in_range n (wrap_index u n s).
Proof.
  intros Hb Hs. rewrite wrap_index_mod by auto. unfold in_range in *; simpl.
  split; apply Z.mod_pos_bound; lia.
Qed.

Lemma unwrap_wrap u n s : in_range n u -> in_range n s -> unwrap_index (wrap_index u n s) n s = u.
Proof.
  intros Hb Hs. rewrite unwrap_index_mod; [|now apply wrap_in_range|auto].
  rewrite wrap_index_mod by auto. unfold in_range in *. destruct u; simpl in *.
  f_equal; apply mod_roundtrip; lia.
Qed.

Lemma wrap_unwrap b n s : in_range n b -> in_range n s -> wrap_index (unwrap_index b n s) n s = b.
Proof.
  intros Hb Hs. rewrite wrap_index_mod; [|now apply unwrap_in_range|auto].
  rewrite unwrap_index_mod by auto. unfold in_range in *. destruct b; simpl in *.
  f_equal; apply mod_roundtrip'; lia.
Qed.

(* ------------------------------------------------------------------ *)
(** ** One axis *)

Lemma Qle_div_iff x y r : (0 < r)%Q -> (y <= x / r <-> y * r <= x)%Q.
Proof.
  intros H. split; intros K.
  - apply Qmult_le_r with (z := r) in K; auto. assert (x / r * r == x)%Q by (field; lra). lra.
  - apply Qle_shift_div_l; auto.
Qed.

Lemma Qlt_div_iff x y r : (0 < r)%Q -> (x / r < y <-> x < y * r)%Q.
Proof.
  intros H. split; intros K.
  - apply Qmult_lt_r with (z := r) in K; auto. assert (x / r * r == x)%Q by (field; lra). lra.
  - apply Qlt_shift_div_r; auto.
Qed.

Lemma contains1_iff L c r k x : (0 < r)%Q ->
  (contains1 r (centre1 L c r k) x <->
   inject_Z k * r <= c + L / 2 - x /\ c + L / 2 - x < (inject_Z k + 1) * r)%Q.
Proof.
  intros. unfold contains1, centre1.
  assert ((inject_Z k + (1#2)) * r == inject_Z k * r + r / 2)%Q as E1 by field.
  assert ((inject_Z k + 1) * r == inject_Z k * r + r)%Q as E2 by ring.
  assert (r / 2 + r / 2 == r)%Q as E3 by field.
  rewrite E1, E2. split; intros [A B]; split; lra.
Qed.

Lemma contains1_unique L c r k k' x : (0 < r)%Q ->
  contains1 r (centre1 L c r k) x -> contains1 r (centre1 L c r k') x -> k = k'.
Proof.
  intros Hr A B. rewrite contains1_iff in A, B by auto. destruct A as [A1 A2], B as [B1 B2].
  assert (inject_Z k * r < (inject_Z k' + 1) * r)%Q as H1 by lra.
  assert (inject_Z k' * r < (inject_Z k + 1) * r)%Q as H2 by lra.
  apply Qmult_lt_r in H1, H2; auto.
  change 1%Q with (inject_Z 1) in H1, H2. rewrite <- inject_Z_plus, <- Zlt_Qlt in H1, H2. lia.
Qed.

Section ExactGeo.
Context {E : Env} (X : Exact E).

Ltac exq := repeat first [rewrite (fdiv_eq X) | rewrite (fmul_eq X) | rewrite (fsub_eq X) | rewrite (fadd_eq X)].

Lemma half_eq x : ((1#2) * x == x / 2)%Q.
Proof. field. Qed.

Lemma within1_iff p L c : within1 p L c = true <-> (c - L / 2 < p /\ p <= c + L / 2)%Q.
Proof.
  unfold within1. rewrite andb_true_iff, Qle_bool_iff, Qlt_bool_iff. exq. rewrite half_eq.
  assert (L / 2 + L / 2 == L)%Q by field. split; intros [A B]; split; lra.
Qed.

Lemma raw_index1_contains p L c r : (0 < r)%Q -> (p <= c + L / 2)%Q ->
  let k := raw_index1 p L c r in 0 <= k /\ contains1 r (centre1 L c r k) p.
Proof.
  intros Hr Hp k. unfold raw_index1 in k.
  assert (Hk : k = Qtrunc ((c + L / 2 - p) / r)).
  { subst k. apply Qtrunc_comp. exq. rewrite half_eq. field. lra. }
  assert (H0 : (0 <= (c + L / 2 - p) / r)%Q) by (apply Qle_shift_div_l; lra).
  rewrite Qtrunc_nonneg in Hk by auto.
  pose proof (Qfloor_le ((c + L / 2 - p) / r)) as F1.
  pose proof (Qlt_floor ((c + L / 2 - p) / r)) as F2.
  rewrite <- Hk in F1, F2. split.
  - assert (0 < k + 1); [|lia]. rewrite Zlt_Qlt. change (inject_Z 0) with 0%Q. lra.
  - rewrite contains1_iff by auto. injz.
    rewrite Qle_div_iff in F1 by auto. rewrite Qlt_div_iff in F2 by auto. split; auto.
Qed.

Lemma contains1_bound L c r k n p : (0 < r)%Q -> (L == inject_Z n * r)%Q ->
  (c - L / 2 < p)%Q -> contains1 r (centre1 L c r k) p -> k < n.
Proof.
  intros Hr HL Hp Hc. rewrite contains1_iff in Hc by auto. destruct Hc as [A B].
  assert (L / 2 + L / 2 == L)%Q by field.
  assert (inject_Z k * r < inject_Z n * r)%Q as H1 by lra.
  apply Qmult_lt_r in H1; auto. now rewrite <- Zlt_Qlt in H1.
Qed.

Lemma contains1_inside L c r k n p : (0 < r)%Q -> (L == inject_Z n * r)%Q -> 0 <= k < n ->
  contains1 r (centre1 L c r k) p -> (c - L / 2 < p /\ p <= c + L / 2)%Q.
Proof.
  intros Hr HL Hk Hc. rewrite contains1_iff in Hc by auto. destruct Hc as [A B].
  assert (L / 2 + L / 2 == L)%Q by field.
  assert (0 <= inject_Z k * r)%Q by (apply Qmult_le_0_compat; [apply inject_Z_nonneg; lia|lra]).
  assert ((inject_Z k + 1) * r <= inject_Z n * r)%Q.
  { apply Qmult_le_r; auto. change 1%Q with (inject_Z 1). rewrite <- inject_Z_plus, <- Zle_Qle. lia. }
  split; lra.
Qed.

Lemma position1_centre k L c r : (position1 k L c r == centre1 L c r k)%Q.
Proof. unfold position1, centre1. exq. injz. field. Qed.

Lemma centre1_self r c : (0 < r)%Q -> contains1 r c c.
Proof. intros. unfold contains1. assert (r / 2 + r / 2 == r)%Q by field. split; lra. Qed.

(* ------------------------------------------------------------------ *)
(** ** Maps *)

Lemma contains_comp r c c' x x' : veq c c' -> veq x x' -> contains r c x -> contains r c' x'.
Proof.
  intros [A B] [A' B']. unfold contains, contains1. rewrite A, B, A', B'. tauto.
Qed.

Lemma world_in_range m i : geo_ok m -> in_range (size m) (world_index m i).
Proof.
  intros G. destruct (g_size _ G). split; apply Z.mod_pos_bound; auto.
Qed.

Lemma unwrap_world m i : geo_ok m -> in_range (size m) i ->
  unwrap_index i (size m) (start m) = world_index m i.
Proof. intros G H. apply unwrap_index_mod; auto. apply (g_start _ G). Qed.

Lemma getPosition_centre m i : geo_ok m -> in_range (size m) i ->
  exists p, getPosition m i = Some p /\ veq p (centre m i).
Proof.
  intros G H. unfold getPosition, position_from_index.
  rewrite (proj2 (index_in_range_iff _ _)) by auto. eexists; split; [reflexivity|].
  rewrite unwrap_world by auto. split; apply position1_centre.
Qed.

Lemma getPosition_None m i : ~ in_range (size m) i -> getPosition m i = None.
Proof.
  intros H. unfold getPosition, position_from_index.
  destruct (index_in_range i (size m)) eqn:K; auto. apply index_in_range_iff in K. tauto.
Qed.

Lemma isInside_iff m p : isInside m p = true <-> inside m p.
Proof.
  unfold isInside, position_within_map, inside. rewrite andb_true_iff, !within1_iff. tauto.
Qed.

Lemma fst_getIndex m p : fst (getIndex m p) = isInside m p.
Proof. reflexivity. Qed.

(** The index found for an inside position is that of the covering cell. *)
Lemma getIndex_contains m p : geo_ok m -> inside m p ->
  in_range (size m) (snd (getIndex m p)) /\
  contains (resn m) (centre m (snd (getIndex m p))) p.
Proof.
  intros G (A1 & A2 & B1 & B2). pose proof (g_res _ G) as Hr. destruct (g_len _ G) as [L1 L2]; simpl in L1, L2.
  pose proof (raw_index1_contains _ _ _ _ Hr A2) as [K1 C1].
  pose proof (raw_index1_contains _ _ _ _ Hr B2) as [K2 C2].
  pose proof (contains1_bound _ _ _ _ _ _ Hr L1 A1 C1).
  pose proof (contains1_bound _ _ _ _ _ _ Hr L2 B1 C2).
  set (k1 := raw_index1 (fst p) (fst (len m)) (fst (pos m)) (resn m)) in *.
  set (k2 := raw_index1 (snd p) (snd (len m)) (snd (pos m)) (resn m)) in *.
  unfold getIndex, index_from_position. cbn [snd]. fold k1 k2.
  assert (in_range (size m) (k1, k2)) as Hk by (unfold in_range; simpl; lia).
  assert (in_range (size m) (wrap_index (k1, k2) (size m) (start m))) as Hw
    by (apply wrap_in_range; auto; apply (g_start _ G)).
  split; auto. unfold centre. rewrite <- unwrap_world by auto.
  rewrite unwrap_wrap by (auto; apply (g_start _ G)). split; auto.
Qed.

Lemma world_index_inj m i j : geo_ok m -> in_range (size m) i -> in_range (size m) j ->
  world_index m i = world_index m j -> i = j.
Proof.
  intros G Hi Hj H. rewrite <- !unwrap_world in H by auto.
  rewrite <- (wrap_unwrap i (size m) (start m)), <- (wrap_unwrap j (size m) (start m));
    auto using g_start. now rewrite H.
Qed.

Lemma covering_unique m i j p : geo_ok m -> in_range (size m) i -> in_range (size m) j ->
  contains (resn m) (centre m i) p -> contains (resn m) (centre m j) p -> i = j.
Proof.
  intros G Hi Hj [A1 A2] [B1 B2]. apply (world_index_inj m); auto.
  pose proof (contains1_unique _ _ _ _ _ _ (g_res _ G) A1 B1).
  pose proof (contains1_unique _ _ _ _ _ _ (g_res _ G) A2 B2).
  destruct (world_index m i), (world_index m j); simpl in *; congruence.
Qed.

Lemma contains_inside m i p : geo_ok m -> contains (resn m) (centre m i) p -> inside m p.
Proof.
  intros G [A B]. destruct (g_len _ G) as [L1 L2]; simpl in L1, L2.
  destruct (world_in_range m i G) as [W1 W2].
  pose proof (contains1_inside _ _ _ _ _ _ (g_res _ G) L1 W1 A).
  pose proof (contains1_inside _ _ _ _ _ _ (g_res _ G) L2 W2 B).
  unfold inside. tauto.
Qed.

Lemma centre_contains m i : geo_ok m -> contains (resn m) (centre m i) (centre m i).
Proof. intros G. split; apply centre1_self; apply (g_res _ G). Qed.

Lemma getIndex_covering m i p : geo_ok m -> in_range (size m) i ->
  contains (resn m) (centre m i) p -> getIndex m p = (true, i).
Proof.
  intros G Hi Hc. pose proof (contains_inside _ _ _ G Hc) as Hin.
  pose proof (getIndex_contains _ _ G Hin) as [R C].
  rewrite (surjective_pairing (getIndex m p)). f_equal.
  - rewrite fst_getIndex. now apply isInside_iff.
  - eapply covering_unique; eauto.
Qed.

Lemma world_value_at m l p v : geo_ok m -> 
  (world_value m l p v <-> atPosition m l p = Ok v).
Proof.
  intros G. unfold atPosition. split.
  - intros (i & d & Hi & Hd & Hv & Hc). rewrite (getIndex_covering m i p); auto.
    unfold at_. rewrite Hd, Hv. reflexivity.
  - destruct (getIndex m p) as [ok i] eqn:HI. destruct ok; [|discriminate].
    unfold at_. destruct (aget (data m) l) as [d|] eqn:Hd; [|discriminate].
    destruct (mget d (fst i) (snd i)) eqn:Hv; [|discriminate]. simpl. intros H; injection H as <-.
    assert (inside m p) as Hin by (apply isInside_iff; rewrite <- fst_getIndex; now rewrite HI).
    pose proof (getIndex_contains _ _ G Hin) as [R C]. rewrite HI in *; simpl in *.
    exists i, d. auto.
Qed.

End ExactGeo.

(** Replace rounded operations by exact ones, outermost first. *)
Ltac exqX X := repeat first [rewrite (fdiv_eq X) | rewrite (fsub_eq X) | rewrite (fadd_eq X) | rewrite (fmul_eq X)].
