(** Index and position lookup, and moves, with rounded arithmetic. *)
From Coq Require Import ZArith QArith Qround Qabs String List Bool Lia Lqa.
From Verif Require Import Base Mat GridMapMath CostMap Spec History BaseLemmas GeoLemmas CoreProofs CoreProofs2 MoveProofs
  FloatLemmas DoubleSpec DoubleGeo.
Import ListNotations.
Open Scope Z_scope.

Lemma near_real (E : Env) : real_or_double E -> Near E.
Proof.
  intros [X|[p ->]] x.
  - rewrite (X x). assert (x - x == 0)%Q as -> by ring. change (Qabs 0) with 0%Q.
    apply Qmult_le_0_compat; [discriminate|apply Qabs_nonneg].
  - cbn [rnd binary64]. pose proof (rne_error 53 x ltac:(lia)) as K. change (pow2 (- (53))) with ulp in K. exact K.
Qed.

Section Maps.
Context {E : Env} (N : Near E).

Lemma blur_eq W m : (blur W m == 16 * (ulp * (inject_Z W * resn m)))%Q.
Proof. unfold blur. ring. Qed.

Lemma small_A W m : W <= 2 ^ 44 -> (0 < resn m)%Q -> (512 * (ulp * (inject_Z W * resn m)) <= resn m)%Q.
Proof.
  intros HW Hr. setoid_replace (512 * (ulp * (inject_Z W * resn m)))%Q with (((512 * ulp) * inject_Z W) * resn m)%Q by ring.
  setoid_replace (resn m) with (1 * resn m)%Q at 2 by ring. apply Qmult_le_compat_r; [|lra].
  setoid_replace 1%Q with ((512 * ulp) * inject_Z (2 ^ 44))%Q by reflexivity.
  apply Qmult_le_l; [reflexivity|]. now rewrite <- Zle_Qle.
Qed.

Lemma blur_pos W m : 0 <= W -> (0 < resn m)%Q -> (0 <= blur W m)%Q.
Proof.
  intros HW Hr. unfold blur. apply Qmult_le_0_compat; [|lra]. apply Qmult_le_0_compat; [discriminate|].
  change 0%Q with (inject_Z 0). now rewrite <- Zle_Qle.
Qed.

(** What the one-axis lemmas need. *)
Lemma axis_hyps n L c r (W : Z) : (0 < r)%Q -> 0 < n ->
  (Qabs (L - inject_Z n * r) <= ulp * (inject_Z n * r))%Q -> (Qabs c + inject_Z n * r <= inject_Z W * r)%Q ->
  1 <= n /\ (inject_Z n * r - ulp * (inject_Z n * r) <= L)%Q /\ (L <= inject_Z n * r + ulp * (inject_Z n * r))%Q /\
  (inject_Z n * r - c <= inject_Z W * r)%Q /\ (inject_Z n * r + c <= inject_Z W * r)%Q.
Proof.
  intros Hr Hn HL HF. apply Qabs_Qle_condition in HL as [L1 L2].
  pose proof (Qle_Qabs c). pose proof (Qle_Qabs (- c)) as H1. rewrite Qabs_opp in H1.
  set (nn := (inject_Z n * r)%Q) in *. set (A := (inject_Z W * r)%Q) in *. clearbody nn A. 
  split; [lia|]. split; [lra|]. split; [lra|]. split; lra.
Qed.

Context (W : Z) (HW : W <= 2 ^ 44).

Lemma unwrap_world' m i : in_range (size m) (start m) -> in_range (size m) i ->
  unwrap_index i (size m) (start m) = world_index m i.
Proof. intros S H. now apply unwrap_index_mod. Qed.

Lemma world_range m i : dgeo W m -> in_range (size m) (world_index m i).
Proof.
  intros G. destruct (d_size _ _ G). unfold world_index, in_range; cbn [fst snd].
  split; apply Z.mod_pos_bound; auto.
Qed.

Lemma position_close m i : dgeo W m -> in_range (size m) i ->
  exists p, getPosition m i = Some p /\ close (blur W m) p (centre m i).
Proof.
  intros G Hi. unfold getPosition, position_from_index.
  assert (index_in_range i (size m) = true) as -> by now apply index_in_range_iff.
  eexists. split; [reflexivity|]. rewrite unwrap_world' by (auto; apply G).
  pose proof (d_res _ _ G) as Hr. destruct (d_size _ _ G) as [Z0 Z1]. destruct (world_range m i G) as [I0 I1].
  pose proof (small_A W m HW Hr) as SA.
  destruct (axis_hyps _ _ _ _ W Hr Z0 (d_len0 _ _ G) (d_far0 _ _ G)) as (a1 & a2 & a3 & a4 & a5).
  destruct (axis_hyps _ _ _ _ W Hr Z1 (d_len1 _ _ G) (d_far1 _ _ G)) as (b1 & b2 & b3 & b4 & b5).
  pose proof (position_err N _ _ _ _ _ Hr a1 a2 a3 a4 a5 SA _ I0) as P0.
  pose proof (position_err N _ _ _ _ _ Hr b1 b2 b3 b4 b5 SA _ I1) as P1.
  pose proof (axis_basic _ _ _ _ _ Hr a1 a2 a3 a4 a5) as (_ & _ & B & _).
  unfold close, centre; cbn [fst snd]. rewrite !Qabs_Qle_condition, blur_eq.
  set (d := (ulp * (inject_Z W * resn m))%Q) in *. clearbody d. split; lra.
Qed.

(** Position p is near the centre of the possibly missing cell w. *)
Definition at_cell (e : Q) (m : cmap) (p : vec) (w : idx) : Prop :=
  close e p (centre1 (fst (len m)) (fst (pos m)) (resn m) (fst w), centre1 (snd (len m)) (snd (pos m)) (resn m) (snd w)).

Lemma at_cell_lookup e m p w : dgeo W m -> (e <= (1#4) * resn m)%Q -> at_cell e m p w ->
  (isInside m p = true <-> in_range (size m) w) /\
  (in_range (size m) w -> exists i, getIndex m p = (true, i) /\ in_range (size m) i /\ world_index m i = w).
Proof.
  intros G He [C0 C1]. cbn [fst snd] in C0, C1. apply Qabs_Qle_condition in C0, C1.
  pose proof (d_res _ _ G) as Hr. destruct (d_size _ _ G) as [Z0 Z1].
  pose proof (small_A W m HW Hr) as SA.
  destruct (axis_hyps _ _ _ _ W Hr Z0 (d_len0 _ _ G) (d_far0 _ _ G)) as (a1 & a2 & a3 & a4 & a5).
  destruct (axis_hyps _ _ _ _ W Hr Z1 (d_len1 _ _ G) (d_far1 _ _ G)) as (b1 & b2 & b3 & b4 & b5).
  destruct (near_cell N _ _ _ _ _ Hr a1 a2 a3 a4 a5 SA (fst p) (fst w) ltac:(lra) ltac:(lra)) as [I0 J0].
  destruct (near_cell N _ _ _ _ _ Hr b1 b2 b3 b4 b5 SA (snd p) (snd w) ltac:(lra) ltac:(lra)) as [I1 J1].
  assert (II : isInside m p = true <-> in_range (size m) w).
  { unfold isInside, position_within_map, in_range. rewrite andb_true_iff, I0, I1. tauto. }
  split; auto. intros Hw. pose proof (d_start _ _ G) as S. pose proof Hw as Hw'. destruct Hw' as [H0 H1].
  exists (wrap_index w (size m) (start m)). split; [|split].
  - unfold getIndex, index_from_position. rewrite J0, J1 by auto. rewrite <- surjective_pairing.
    f_equal. apply II. exact Hw.
  - now apply wrap_in_range.
  - rewrite <- unwrap_world' by (auto; now apply wrap_in_range). now apply unwrap_wrap.
Qed.

Lemma blur_small m : dgeo W m -> (blur W m <= (1#4) * resn m)%Q.
Proof.
  intros G. pose proof (small_A W m HW (d_res _ _ G)) as S. rewrite blur_eq.
  pose proof (d_res _ _ G) as Hr. destruct (d_size _ _ G) as [Z0 Z1].
  set (d := (ulp * (inject_Z W * resn m))%Q) in *. clearbody d. lra.
Qed.

Lemma world_index_inj' m i j : dgeo W m -> in_range (size m) i -> in_range (size m) j ->
  world_index m i = world_index m j -> i = j.
Proof.
  intros G Hi Hj H. rewrite <- !unwrap_world' in H by (auto; apply G).
  rewrite <- (wrap_unwrap i (size m) (start m)), <- (wrap_unwrap j (size m) (start m)); auto; try apply G. now rewrite H.
Qed.

Lemma roundtrip_map m i : dgeo W m -> in_range (size m) i ->
  exists p, getPosition m i = Some p /\ close (blur W m) p (centre m i) /\ isInside m p = true /\ getIndex m p = (true, i).
Proof.
  intros G Hi. destruct (position_close m i G Hi) as (p & Hp & C). exists p. split; auto. split; auto.
  destruct (at_cell_lookup (blur W m) m p (world_index m i) G (blur_small m G) C) as [I J].
  pose proof (world_range m i G) as R. split; [now apply I|].
  destruct (J R) as (j & Hj & Rj & Wj). rewrite Hj. f_equal. now apply (world_index_inj' m).
Qed.

Lemma inside_up m p : dgeo W m -> isInside m p = true -> inside_by (blur W m) m p.
Proof.
  intros G I. unfold isInside, position_within_map in I. apply andb_true_iff in I as [I0 I1].
  pose proof (d_res _ _ G) as Hr. destruct (d_size _ _ G) as [Z0 Z1].
  pose proof (small_A W m HW Hr) as SA.
  destruct (axis_hyps _ _ _ _ W Hr Z0 (d_len0 _ _ G) (d_far0 _ _ G)) as (a1 & a2 & a3 & a4 & a5).
  destruct (axis_hyps _ _ _ _ W Hr Z1 (d_len1 _ _ G) (d_far1 _ _ G)) as (b1 & b2 & b3 & b4 & b5).
  destruct (within_true N _ _ _ _ _ Hr a1 a2 a3 a4 a5 SA _ I0).
  destruct (within_true N _ _ _ _ _ Hr b1 b2 b3 b4 b5 SA _ I1).
  pose proof (axis_basic _ _ _ _ _ Hr a1 a2 a3 a4 a5) as (_ & _ & B & _).
  unfold inside_by, lower, upper; cbn [fst snd]. rewrite blur_eq.
  set (d := (ulp * (inject_Z W * resn m))%Q) in *. clearbody d.
  split; [lra|]. split; [lra|]. split; lra.
Qed.

Lemma inside_down m p : dgeo W m -> inside_by (- blur W m) m p -> isInside m p = true.
Proof.
  intros G I. unfold isInside, position_within_map. apply andb_true_iff.
  pose proof (d_res _ _ G) as Hr. destruct (d_size _ _ G) as [Z0 Z1].
  pose proof (small_A W m HW Hr) as SA.
  destruct (axis_hyps _ _ _ _ W Hr Z0 (d_len0 _ _ G) (d_far0 _ _ G)) as (a1 & a2 & a3 & a4 & a5).
  destruct (axis_hyps _ _ _ _ W Hr Z1 (d_len1 _ _ G) (d_far1 _ _ G)) as (b1 & b2 & b3 & b4 & b5).
  pose proof (axis_basic _ _ _ _ _ Hr a1 a2 a3 a4 a5) as (_ & _ & B & _).
  unfold inside_by, lower, upper in I; cbn [fst snd] in I. rewrite blur_eq in I. destruct I as (I1 & I2 & I3 & I4).
  split.
  - apply (within_intro N _ _ _ _ _ Hr a1 a2 a3 a4 a5 SA); set (d := (ulp * (inject_Z W * resn m))%Q) in *; clearbody d; lra.
  - apply (within_intro N _ _ _ _ _ Hr b1 b2 b3 b4 b5 SA); set (d := (ulp * (inject_Z W * resn m))%Q) in *; clearbody d; lra.
Qed.

(** The cell found for a position, unless it lies at the very end of the map. *)
Lemma index_close m p : dgeo W m -> isInside m p = true ->
  (fst (lower m) + blur W m < fst p)%Q -> (snd (lower m) + blur W m < snd p)%Q ->
  exists i, getIndex m p = (true, i) /\ in_range (size m) i /\ close (resn m / 2 + blur W m) p (centre m i).
Proof.
  intros G I F0 F1. pose proof I as I'. unfold isInside, position_within_map in I'. apply andb_true_iff in I' as [I0 I1].
  pose proof (d_res _ _ G) as Hr. destruct (d_size _ _ G) as [Z0 Z1]. pose proof (d_start _ _ G) as S.
  pose proof (small_A W m HW Hr) as SA.
  destruct (axis_hyps _ _ _ _ W Hr Z0 (d_len0 _ _ G) (d_far0 _ _ G)) as (a1 & a2 & a3 & a4 & a5).
  destruct (axis_hyps _ _ _ _ W Hr Z1 (d_len1 _ _ G) (d_far1 _ _ G)) as (b1 & b2 & b3 & b4 & b5).
  pose proof (axis_basic _ _ _ _ _ Hr a1 a2 a3 a4 a5) as (_ & _ & B & _).
  destruct (raw_cell N _ _ _ _ _ Hr a1 a2 a3 a4 a5 SA _ I0) as (K0 & L0 & U0 & M0).
  destruct (raw_cell N _ _ _ _ _ Hr b1 b2 b3 b4 b5 SA _ I1) as (K1 & L1 & U1 & M1).
  set (k0 := raw_index1 (fst p) (fst (len m)) (fst (pos m)) (resn m)) in *.
  set (k1 := raw_index1 (snd p) (snd (len m)) (snd (pos m)) (resn m)) in *.
  unfold lower in F0, F1; cbn [fst snd] in F0, F1. rewrite blur_eq in F0, F1.
  assert (N0 : k0 < fst (size m)).
  { apply M0. set (d := (ulp * (inject_Z W * resn m))%Q) in *. clearbody d. lra. }
  assert (N1 : k1 < snd (size m)).
  { apply M1. set (d := (ulp * (inject_Z W * resn m))%Q) in *. clearbody d. lra. }
  assert (RK : in_range (size m) (k0, k1)) by (unfold in_range; cbn [fst snd]; lia).
  exists (wrap_index (k0, k1) (size m) (start m)). split; [|split].
  - unfold getIndex, index_from_position. fold k0 k1. f_equal. exact I.
  - now apply wrap_in_range.
  - unfold centre. rewrite <- unwrap_world' by (auto; now apply wrap_in_range). rewrite unwrap_wrap by auto. cbn [fst snd].
    unfold close, centre1; cbn [fst snd]. rewrite !Qabs_Qle_condition, blur_eq.
    assert (EL : forall x, (x / 2 == (1#2) * x)%Q) by (intros; field). rewrite !EL in *.
    assert (EK : forall k, ((inject_Z k + (1#2)) * resn m == inject_Z k * resn m + (1#2) * resn m)%Q) by (intros; ring).
    assert (EK' : forall k, ((inject_Z k + 1) * resn m == inject_Z k * resn m + resn m)%Q) by (intros; ring).
    rewrite !EK. rewrite !EK' in *. 
    set (d := (ulp * (inject_Z W * resn m))%Q) in *. clearbody d.
    set (v0 := (inject_Z k0 * resn m)%Q) in *. set (v1 := (inject_Z k1 * resn m)%Q) in *. clearbody v0 v1.
    split; split; lra.
Qed.

End Maps.
