(** Final forms of the lemmas about iteration and moving. *)
From Coq Require Import ZArith QArith Qround Qabs Qreduction String List Bool Lia.
From Coq Require Import ZifyBool.
From Verif Require Import Base Mat GridMapMath GridIter CostMap History Spec BaseLemmas GeoLemmas CoreProofs CoreProofs2 CoreFinal IterProofs MoveProofs.
Import ListNotations.
Open Scope Z_scope.

(** ** Iteration *)

Lemma map_visits2_final (E : Env) n s : in_range n s ->
  exists vs, map_visits2 n s = Ok vs /\ map_visits n s = Ok (map fst vs) /\
    NoDup (map fst vs) /\
    (forall i, In i (map fst vs) <-> in_range n i) /\
    (forall k i u, nth_error vs k = Some (i, u) ->
       u = ((fst i - fst s) mod fst n, (snd i - snd s) mod snd n) /\
       Z.of_nat k = fst u * snd n + snd u).
Proof.
  intros Hs. exists (map (fun i => (i, unwrap_index i n s)) (visit_list n s)).
  split; [now apply map_visits2_ok|]. rewrite map_map. cbn [fst]. rewrite map_id.
  split; [now apply map_visits_ok|]. split; [now apply visit_list_NoDup|].
  split; [intros; now apply visit_list_In|].
  intros k i u H. rewrite nth_error_map' in H.
  destruct (nth_error (visit_list n s) k) as [j|] eqn:K; [|discriminate]. injection H as <- <-.
  pose proof (visit_list_nth n s k j Hs K) as L.
  assert (in_range n j) as Hj by (apply (visit_list_In n s j Hs); eapply nth_error_In; eauto).
  rewrite unwrap_index_mod by auto. cbn [fst snd]. split; auto.
Qed.

Lemma sub_visits_final (E : Env) n s tl sn : in_range n s -> in_range n tl -> 0 < fst sn -> 0 < snd sn ->
  (fst tl - fst s) mod fst n + fst sn <= fst n -> (snd tl - snd s) mod snd n + snd sn <= snd n ->
  exists vs, sub_visits n s tl sn = Ok vs /\ NoDup (map fst vs) /\
    (forall i w, In (i, w) vs <-> in_range sn w /\
        i = ((fst tl + fst w) mod fst n, (snd tl + snd w) mod snd n)) /\
    (forall k i w, nth_error vs k = Some (i, w) -> Z.of_nat k = fst w * snd sn + snd w).
Proof.
  intros Hs Ht H1 H2 H3 H4. assert (window_ok n s tl sn) as W by (unfold window_ok; auto 10).
  exists (window_list n s tl sn). split; [now apply sub_visits_ok|].
  destruct (window_list_spec n s tl sn W) as (A & B & C). split; auto. split; auto.
  intros k i w Hk. symmetry. eapply C; eauto.
Qed.

(** The loop [it != it.end()] stops one cell early. *)
Lemma run_until {I A} (past : I -> bool) (cur : I -> A) (next : I -> I) (st : Z -> I) N :
  forall fuel a, (N < fuel)%nat ->
  (forall k, a <= k < a + Z.of_nat N -> past (st k) = false) ->
  (forall k, a <= k < a + Z.of_nat N -> next (st k) = st (k + 1)) ->
  past (st (a + Z.of_nat N)) = true ->
  run past cur next fuel (st a) = Ok (map (fun k => cur (st k)) (zseq_aux a N)).
Proof.
  induction N as [|N IH]; intros fuel a Hf H1 H2 H3; (destruct fuel as [|fuel]; [lia|]); cbn [run].
  - replace (a + Z.of_nat 0) with a in H3 by lia. now rewrite H3.
  - rewrite H1 by lia. rewrite H2 by lia. rewrite IH; try lia.
    + reflexivity.
    + intros; apply H1; lia.
    + intros; apply H2; lia.
    + replace (a + 1 + Z.of_nat N) with (a + Z.of_nat (S N)) by lia. auto.
Qed.

(** Position of a buffer index in the order of the loop. *)
Definition order_no (n s i : idx) : Z := ((fst i - fst s) mod fst n) * snd n + (snd i - snd s) mod snd n.

Lemma visits_until (E : Env) n s : in_range n s ->
  let e := (bound1 (fst s + fst n - 1) (fst n), bound1 (snd s + snd n - 1) (snd n)) in
  exists vs, map_visits_end n s = Ok vs /\ NoDup vs /\
    (forall i, In i vs <-> in_range n i /\ order_no n s i < order_no n s e).
Proof.
  intros Hs e. assert (0 < fst n /\ 0 < snd n) as [N0 N1] by (destruct Hs; lia).
  assert (0 < fst n * snd n) as NN by nia.
  assert (Re : in_range n e) by (split; apply bound1_range; auto).
  destruct (map_iter_new_ok n s Hs) as (e' & He & ->). fold e in He.
  assert (ON : forall i, in_range n i -> order_no n s i = fst (unwrap_index i n s) * snd n + snd (unwrap_index i n s)).
  { intros i Hi. rewrite unwrap_index_mod by auto. reflexivity. }
  assert (OR : forall i, in_range n i -> 0 <= order_no n s i < fst n * snd n).
  { intros i Hi. rewrite ON by auto. destruct (unwrap_in_range i n s Hi Hs). nia. }
  assert (OW : forall i, in_range n i -> wrap_index (kth n (order_no n s i)) n s = i).
  { intros i Hi. rewrite ON by auto. rewrite kth_inv by (now apply unwrap_in_range). now apply wrap_unwrap. }
  assert (OK : forall k, 0 <= k < fst n * snd n -> order_no n s (wrap_index (kth n k) n s) = k).
  { intros k Hk. assert (in_range n (kth n k)) by (now apply kth_in_range). rewrite ON by (now apply wrap_in_range).
    rewrite unwrap_wrap by auto. now apply kth_lin. }
  pose proof (OR e Re) as Oe. pose proof (OW e Re) as We. set (K := order_no n s e) in *. clearbody K.
  pose (st := fun k => MapIter n s e (wrap_index (kth n k) n s) false).
  exists (map (fun k => wrap_index (kth n k) n s) (zseq K)). split.
  { unfold map_visits_end. rewrite He. cbn [rbind].
    assert (MapIter n s e s false = st 0) as ->.
    { unfold st. f_equal. symmetry. rewrite <- (wrap_zero n s Hs) at 2. f_equal. }
    unfold zseq. rewrite (run_until _ mi_index map_iter_next st (Z.to_nat K)).
    - reflexivity.
    - unfold grid_fuel; lia.
    - intros k Hk. unfold map_iter_ne. cbn [mi_index st map_iter_end mi_end]. rewrite negb_involutive.
      destruct (idx_eqb _ _) eqn:Q; auto. apply idx_eqb_eq in Q. rewrite <- We in Q.
      apply (f_equal (order_no n s)) in Q. rewrite !OK in Q by lia. lia.
    - intros k Hk. unfold map_iter_next. cbn [mi_index mi_size mi_start st mi_end].
      rewrite increment_kth by (auto; lia). replace (k + 1 <? fst n * snd n) with true by lia. reflexivity.
    - unfold map_iter_ne. cbn [mi_index st map_iter_end mi_end]. rewrite negb_involutive.
      apply idx_eqb_eq. rewrite <- We. f_equal. f_equal. lia. }
  split.
  - apply NoDup_map_inj; [|apply zseq_NoDup]. intros x y Hx Hy Q. apply In_zseq in Hx, Hy.
    apply (f_equal (order_no n s)) in Q. rewrite !OK in Q by lia. exact Q.
  - intros i. rewrite in_map_iff. split.
    + intros (k & <- & Hk). apply In_zseq in Hk. split; [apply wrap_in_range; auto; apply kth_in_range; lia|]. rewrite OK; lia.
    + intros [Hi Hlt]. exists (order_no n s i). split; [now apply OW|]. apply In_zseq. pose proof (OR i Hi). lia.
Qed.

Lemma order_last n s i : in_range n s -> in_range n i ->
  let e := ((fst s + fst n - 1) mod fst n, (snd s + snd n - 1) mod snd n) in
  order_no n s i < order_no n s e <-> i <> e.
Proof.
  intros Hs Hi e. destruct Hs as [S0 S1], Hi as [I0 I1].
  assert (U0 : (fst e - fst s) mod fst n = fst n - 1).
  { unfold e; cbn [fst]. rewrite Zminus_mod_idemp_l. replace (fst s + fst n - 1 - fst s) with (fst n - 1) by lia. apply Z.mod_small; lia. }
  assert (U1 : (snd e - snd s) mod snd n = snd n - 1).
  { unfold e; cbn [snd]. rewrite Zminus_mod_idemp_l. replace (snd s + snd n - 1 - snd s) with (snd n - 1) by lia. apply Z.mod_small; lia. }
  unfold order_no. rewrite U0, U1.
  assert (B0 : 0 <= (fst i - fst s) mod fst n < fst n) by (apply Z.mod_pos_bound; lia).
  assert (B1 : 0 <= (snd i - snd s) mod snd n < snd n) by (apply Z.mod_pos_bound; lia).
  split.
  - intros L ->. rewrite U0, U1 in L. lia.
  - intros N. destruct (Z.eq_dec ((fst i - fst s) mod fst n) (fst n - 1)) as [A|A]; [|nia].
    destruct (Z.eq_dec ((snd i - snd s) mod snd n) (snd n - 1)) as [B|B]; [|nia]. exfalso. apply N.
    rewrite <- U0 in A. rewrite <- U1 in B.
    assert (INJ : forall x y z k, 0 < k -> 0 <= x < k -> 0 <= y < k -> (x - z) mod k = (y - z) mod k -> x = y).
    { intros x y z k Hk Hx Hy Q. assert (x mod k = y mod k).
      { replace x with (x - z + z) by lia. replace y with (y - z + z) by lia. rewrite (Z.add_mod (x - z)), Q, <- Z.add_mod by lia. reflexivity. }
      rewrite !Z.mod_small in H by lia. exact H. }
    assert (0 <= fst e < fst n /\ 0 <= snd e < snd n) as [E0 E1] by (split; apply Z.mod_pos_bound; lia).
    destruct i, e; cbn [fst snd] in *. f_equal; eapply INJ; eauto; lia.
Qed.

Lemma map_visits_end_final (E : Env) n s : bpol = BWrap \/ s = (0, 0) -> in_range n s ->
  exists vs, map_visits_end n s = Ok vs /\ NoDup vs /\
    (forall i, In i vs <-> in_range n i /\
       i <> ((fst s + fst n - 1) mod fst n, (snd s + snd n - 1) mod snd n)).
Proof.
  intros P Hs. destruct (visits_until E n s Hs) as (vs & V & ND & I). exists vs. split; auto. split; auto.
  intros i. rewrite I. assert (0 < fst n /\ 0 < snd n) as [N0 N1] by (destruct Hs; lia).
  assert ((bound1 (fst s + fst n - 1) (fst n), bound1 (snd s + snd n - 1) (snd n)) = ((fst s + fst n - 1) mod fst n, (snd s + snd n - 1) mod snd n)) as ->.
  { destruct P as [P| ->].
    - unfold bound1. rewrite P. now rewrite !wrap1_mod by auto.
    - cbn [fst snd]. rewrite !bound1_in_range by lia. now rewrite !Z.mod_small by lia. }
  split; intros [Hi K]; split; auto; now apply (order_last n s i Hs Hi).
Qed.

Lemma map_visits_clamp_final (E : Env) n s : bpol = BClamp -> in_range n s ->
  exists vs, map_visits_end n s = Ok vs /\ NoDup vs /\
    (forall i, In i vs <-> in_range n i /\ order_no n s i < order_no n s (fst n - 1, snd n - 1)).
Proof.
  intros P Hs. destruct (visits_until E n s Hs) as (vs & V & ND & I). exists vs. split; auto. split; auto.
  intros i. rewrite I. destruct Hs as [S0 S1].
  assert (C : forall a b, 0 <= a < b -> bound1 (a + b - 1) b = b - 1).
  { intros a b H. unfold bound1. rewrite P. destruct (Z.ltb_spec (a + b - 1) 0), (Z.leb_spec b (a + b - 1)); lia. }
  rewrite !C by auto. reflexivity.
Qed.

(** ** Moving *)

Lemma cleared_iff m l : cleared_layer m l <-> In l (layers_to_clear m).
Proof. unfold cleared_layer, layers_to_clear. destruct (basic m); reflexivity. Qed.

Lemma region_has_iff r i : region_has r i <-> in_region r i = true.
Proof. unfold region_has, in_region, in_block. lia. Qed.

Lemma move_stationary_final (E : Env) (X : Exact E) : bpol = BWrap -> forall m tr m',
  geo_ok m -> reg_ok' m -> basics_exist m -> move_trace m tr m' ->
  (forall l q v, inside m' q -> (forall mi, In mi (map fst tr) -> inside mi q) ->
     (world_value m' l q v <-> world_value m l q v)) /\
  (forall l q, cleared_layer m l -> inside m' q -> (exists mi, In mi (map fst tr) /\ ~ inside mi q) ->
     world_value m' l q unknown).
Proof.
  intros P m tr m' G R B H. destruct (move_trace_ok X m tr m' P G R B H) as (_ & A & C). split; auto.
  intros l q Hl. apply C. now apply cleared_iff.
Qed.

Lemma move_trace_total (E : Env) (X : Exact E) : bpol = BWrap -> forall ps m,
  geo_ok m -> reg_ok' m -> basics_exist m ->
  exists tr m', move_trace m tr m' /\ map snd tr = ps.
Proof.
  intros P ps m G R B. induction ps as [|p ps (tr & m1 & T & L)] using rev_ind.
  - exists [], m. split; constructor.
  - destruct (move_trace_ok X m tr m1 P G R B T) as ((G1 & R1 & B1 & _) & _).
    destruct (move_total X p m1 P G1 R1 B1) as (b & rs & m2 & H).
    exists (tr ++ [(m1, p)]), m2. split; [econstructor; eauto|]. rewrite map_app, L. reflexivity.
Qed.

Lemma move_single_final (E : Env) (X : Exact E) : forall p m,
  geo_ok m -> reg_ok' m -> basics_exist m ->
  exists b rs m', move p m = Ret (b, rs) m' /\
    geo_ok m' /\ reg_ok' m' /\
    layers m' = layers m /\ frame m' = frame m /\ stamp m' = stamp m /\ basic m' = basic m /\
    len m' = len m /\ resn m' = resn m /\ size m' = size m /\
    (forall l, exists_layer m' l = exists_layer m l) /\
    (forall l i v, value_at m' l i v -> v = unknown \/ value_at m l i v) /\
    (exists k0 k1 : Z, (fst (pos m') == fst (pos m) + inject_Z k0 * resn m)%Q /\
                       (snd (pos m') == snd (pos m) + inject_Z k1 * resn m)%Q) /\
    (Qabs (fst (pos m') - fst p) <= resn m / 2)%Q /\ (Qabs (snd (pos m') - snd p) <= resn m / 2)%Q /\
    (b = true <-> ~ veq (pos m') (pos m)).
Proof.
  intros p m G R B. destruct (move_any p m R B (g_start _ G)) as (rs & m' & H & R' & E1 & E2 & E3 & E4 & E5 & E6 & E7 & E8 & E9 & N & V).
  destruct (placed_ok X p m m' G E9) as (K & P0 & P1 & PB).
  eexists _, rs, m'. split; [exact H|]. split.
  { constructor; rewrite ?E6, ?E7, ?E5; try apply G. rewrite <- E7. exact E8. }
  split; auto. split; auto. split; auto. split; auto. split; auto. split; auto. split; auto. split; auto. split.
  { intros l. apply eq_true_iff_eq. rewrite !exists_has. apply N. }
  split; auto.
Qed.

Lemma move_regions_final (E : Env) (X : Exact E) : bpol = BWrap -> forall p m b rs m',
  geo_ok m -> reg_ok' m -> basics_exist m -> move p m = Ret (b, rs) m' ->
  forall i, in_range (size m') i ->
    ((exists r, In r rs /\ region_has r i) <-> ~ inside m (centre m' i)).
Proof.
  intros P p m b rs m' G R B H i Hi. destruct (g_size _ G) as [Z0 Z1].
  destruct (move_ok X p m) as (b' & rs' & m2 & H' & M); auto using bound_wraps_BWrap.
  rewrite H in H'. injection H' as <- <- <-.
  destruct M as (_ & _ & _ & _ & _ & _ & _ & _ & _ & _ & _ & _ & _ & _ & _ & _ & M).
  rewrite <- (M i Hi). split; intros (r & Hr & K); exists r; split; auto; now apply region_has_iff.
Qed.

(** Any bounding policy, as long as no start index leaves the buffer. *)
Lemma move_nowrap_final (E : Env) (X : Exact E) p m b rs m' k0 k1 :
  geo_ok m -> reg_ok' m -> basics_exist m -> move p m = Ret (b, rs) m' ->
  (Qabs (fst p - (fst (pos m) + inject_Z k0 * resn m)) < resn m / 2)%Q ->
  (Qabs (snd p - (snd (pos m) + inject_Z k1 * resn m)) < resn m / 2)%Q ->
  (0 <= fst (start m) - k0 < fst (size m) \/ fst (size m) <= Z.abs k0) ->
  (0 <= snd (start m) - k1 < snd (size m) \/ snd (size m) <= Z.abs k1) ->
  (forall l q v, inside m q -> inside m' q -> (world_value m' l q v <-> world_value m l q v)) /\
  (forall l q, cleared_layer m l -> inside m' q -> ~ inside m q -> world_value m' l q unknown) /\
  (b = true <-> ~ veq (pos m') (pos m)) /\
  (forall i, in_range (size m') i -> ((exists r, In r rs /\ region_has r i) <-> ~ inside m (centre m' i))).
Proof.
  intros G R B H N0 N1 C0 C1.
  destruct (move_clamp_ok X p m b rs m' G R B H (- k0) (- k1)) as
    (_ & _ & _ & _ & _ & _ & _ & _ & _ & _ & _ & _ & _ & Bv & W1 & W2 & W3).
  - eapply Qle_lt_trans; [|exact N0]. apply Qle_lteq. right. rewrite inject_Z_opp. apply Qabs_wd. ring.
  - eapply Qle_lt_trans; [|exact N1]. apply Qle_lteq. right. rewrite inject_Z_opp. apply Qabs_wd. ring.
  - rewrite Z.abs_opp. exact C0.
  - rewrite Z.abs_opp. exact C1.
  - split; auto. split; [intros l q Hl; apply W2; now apply cleared_iff|]. split; auto.
    intros i Hi. rewrite <- (W3 i Hi).
    split; intros (r & Hr & K); exists r; split; auto; now apply region_has_iff.
Qed.
