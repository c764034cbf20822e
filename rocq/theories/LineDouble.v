(** The search of LineIterator for the cell at which a segment enters the map, with
    rounding. *)
From Coq Require Import ZArith QArith Qround Qabs String List Bool Lia Lqa.
From Verif Require Import Base Mat GridMapMath GridIter CostMap Iterators Spec DoubleSpec BaseLemmas GeoLemmas CoreProofs FilterProofs LineProofs
  DoubleGeo DoubleMap DoubleShape.
Import ListNotations.
Open Scope Z_scope.

(** ** The loop, for any arithmetic *)
Section Loop.
Context {E : Env} (sqr : Q -> Q) (m : cmap) (en dir : vec).

Definition s_step : Q := fsub (resn m) dbl_eps.
Definition s_next (p : vec) : vec := (fadd (fst p) (fmul s_step (fst dir)), fadd (snd p) (fmul s_step (snd dir))).
Definition s_stop (p : vec) : bool :=
  Qlt_bool (sqr (fadd (fmul (fsub (fst en) (fst p)) (fsub (fst en) (fst p))) (fmul (fsub (snd en) (snd p)) (fsub (snd en) (snd p))))) s_step.
Fixpoint s_at (st : vec) (k : nat) : vec := match k with O => st | S k => s_next (s_at st k) end.

Lemma s_at_next st k : s_at (s_next st) k = s_at st (S k).
Proof. induction k as [|k IH]; [reflexivity|]. cbn [s_at] in *. now rewrite IH. Qed.

Lemma limit_run J : forall st, (1 <= J)%nat -> s_stop (s_at st J) = true ->
  (exists j, (j < J)%nat /\ isInside m (s_at st j) = true /\ (forall i, (i < j)%nat -> isInside m (s_at st i) = false) /\
     forall fuel, (J <= fuel)%nat -> limit_loop sqr m en dir fuel st = Ok (Some (snd (getIndex m (s_at st j))))) \/
  (exists j, (1 <= j <= J)%nat /\ s_stop (s_at st j) = true /\ (forall i, (i < j)%nat -> isInside m (s_at st i) = false) /\
     forall fuel, (J <= fuel)%nat -> limit_loop sqr m en dir fuel st = Ok None).
Proof.
  induction J as [|J IH]; intros st HJ HS; [lia|].
  assert (ST : forall f, limit_loop sqr m en dir (S f) st =
    if isInside m st then Ok (Some (snd (getIndex m st))) else if s_stop (s_next st) then Ok None else limit_loop sqr m en dir f (s_next st)).
  { intros f. cbn [limit_loop]. rewrite (surjective_pairing (getIndex m st)), fst_getIndex. reflexivity. }
  destruct (isInside m st) eqn:I0.
  { left. exists 0%nat. split; [lia|]. split; [exact I0|]. split; [lia|]. intros [|f] Hf; [lia|]. now rewrite ST. }
  destruct (s_stop (s_next st)) eqn:S0.
  { right. exists 1%nat. split; [lia|]. split; [exact S0|]. split; [intros i Hi; assert (i = 0%nat) as -> by lia; exact I0|].
    intros [|f] Hf; [lia|]. now rewrite ST. }
  destruct J as [|J]; [cbn [s_at] in HS; congruence|].
  rewrite <- s_at_next in HS. destruct (IH (s_next st) ltac:(lia) HS) as [(j & A1 & A2 & A3 & A4)|(j & A1 & A2 & A3 & A4)].
  - left. exists (S j). split; [lia|]. rewrite <- s_at_next. split; [exact A2|]. split.
    + intros [|i] Hi; [exact I0|]. rewrite <- s_at_next. apply A3. lia.
    + intros [|f] Hf; [lia|]. rewrite ST. apply A4. lia.
  - right. exists (S j). split; [lia|]. rewrite <- s_at_next. split; [exact A2|]. split.
    + intros [|i] Hi; [exact I0|]. rewrite <- s_at_next. apply A3. lia.
    + intros [|f] Hf; [lia|]. rewrite ST. apply A4. lia.
Qed.
End Loop.

(** ** Where the samples are *)

(** The error of the samples: up to 6 W of them, each off by 9 roundings of at most 2 W cells. *)
Definition drift (W : Z) (m : cmap) : Q := (128 * ulp * (inject_Z W * inject_Z W) * resn m)%Q.

Lemma drift_eq W m : (drift W m == 128 * (inject_Z W * (ulp * (inject_Z W * resn m))))%Q.
Proof. unfold drift. ring. Qed.

Lemma drift_small W m : 0 <= W <= 2 ^ 20 -> (0 <= resn m)%Q -> (drift W m <= (1#64) * resn m)%Q.
Proof.
  intros HW Hr. unfold drift. apply Qmult_le_compat_r; [|exact Hr]. setoid_replace (1#64)%Q with (128 * ulp * (inject_Z (2^20) * inject_Z (2 ^ 20)))%Q by reflexivity.
  apply Qmult_le_l; [reflexivity|]. rewrite <- !inject_Z_mult, <- Zle_Qle. apply Z.mul_le_mono_nonneg; lia.
Qed.

Section Samples.
Context {E : Env} (N : Near E).

(** One component of the samples: [x] the start, [D] the component of the segment,
    [d] the share of the segment that one step covers, [B] a bound. *)
Lemma sample_axis st w D d B J : (0 <= B)%Q -> (0 <= d)%Q -> (Qabs (w - d * D) <= 4 * ulp * Qabs (d * D))%Q ->
  (Qabs (d * D) <= B)%Q -> (forall k, (k <= J)%nat -> Qabs (st + inject_Z (Z.of_nat k) * d * D) <= B)%Q ->
  (inject_Z (Z.of_nat J) * (9 * ulp) <= 1)%Q ->
  forall x, x 0%nat = st -> (forall k, x (S k) = fadd (x k) w) ->
  forall k, (k <= J)%nat -> (Qabs (x k - (st + inject_Z (Z.of_nat k) * d * D)) <= inject_Z (Z.of_nat k) * (9 * ulp * B))%Q.
Proof.
  intros HB Hd HE HD HK HJ x X0 XS. induction k as [|k IH]; intros Hk.
  { rewrite X0. change (inject_Z (Z.of_nat 0)) with 0%Q. setoid_replace (st - (st + 0 * d * D))%Q with 0%Q by ring. rewrite Qmult_0_l. discriminate. }
  specialize (IH ltac:(lia)). pose proof (HK (S k) Hk) as H1. rewrite XS.
  assert (EK : (inject_Z (Z.of_nat (S k)) == inject_Z (Z.of_nat k) + 1)%Q). { rewrite Nat2Z.inj_succ, <- Z.add_1_r, inject_Z_plus. reflexivity. }
  assert (KJ : (inject_Z (Z.of_nat k) <= inject_Z (Z.of_nat J))%Q) by (rewrite <- Zle_Qle; lia).
  rewrite EK in *. set (n := inject_Z (Z.of_nat k)) in *. clearbody n.
  assert (HU : (0 < ulp)%Q) by reflexivity.
  assert (UD : (4 * ulp * Qabs (d * D) <= 4 * ulp * B)%Q) by (apply Qmult_le_l; [reflexivity|exact HD]).
  set (U := (ulp * B)%Q). assert (U0 : (0 <= U)%Q) by (apply Qmult_le_0_compat; lra).
  assert (UB : (U <= (1#64) * B)%Q) by (unfold U; apply Qmult_le_compat_r; [discriminate|exact HB]).
  assert (NB : (n * (9 * ulp * B) <= B)%Q).
  { setoid_replace (n * (9 * ulp * B))%Q with ((n * (9 * ulp)) * B)%Q by ring. setoid_replace B with (1 * B)%Q at 2 by ring.
    apply Qmult_le_compat_r; [|exact HB]. apply Qle_trans with (2 := HJ). apply Qmult_le_compat_r; [exact KJ|discriminate]. }
  assert (E9 : (n * (9 * ulp * B) == 9 * (n * U))%Q) by (unfold U; ring). rewrite E9 in *.
  assert (E4 : (4 * ulp * B == 4 * U)%Q) by (unfold U; ring). rewrite E4 in UD.
  assert (GOAL : ((n + 1) * (9 * ulp * B) == 9 * (n * U) + 9 * U)%Q) by (unfold U; ring). rewrite GOAL.
  apply Qabs_Qle_condition in IH as [I0 I1]. apply Qabs_Qle_condition in H1 as [H0 H1].
  assert (HE' : (Qabs (w - d * D) <= 4 * U)%Q) by lra. apply Qabs_Qle_condition in HE' as [W0 W1].
  setoid_replace ((n + 1) * d * D)%Q with (n * d * D + d * D)%Q in H0 by ring.
  setoid_replace ((n + 1) * d * D)%Q with (n * d * D + d * D)%Q in H1 by ring.
  setoid_replace ((n + 1) * d * D)%Q with (n * d * D + d * D)%Q by ring.
  destruct (nr N (x k + w)%Q ((5#2) * B)%Q) as [R0 R1]; [lra|lra|].
  assert (EB : (ulp * ((5#2) * B) == (5#2) * U)%Q) by (unfold U; ring). rewrite EB in R0, R1.
  unfold fadd. apply Qabs_Qle_condition. split; lra.
Qed.

(** The step vector: rounded three times. *)
Lemma step_rel a b s u : (0 < u)%Q -> (Qabs (fmul s (fdiv (fsub b a) u) - s / u * (b - a)) <= 4 * ulp * Qabs (s / u * (b - a)))%Q.
Proof.
  intros Hu. destruct (fsub_rel N b a) as (f & Ef & Ff). destruct (fdiv_rel N (fsub b a) u) as (g & Eg & Fg).
  destruct (fmul_rel N s (fdiv (fsub b a) u)) as (h & Eh & Fh). rewrite Eh, Eg, Ef.
  assert (F : factor 4 (f * g * h)).
  { eapply factor_le; [|apply factor_mul; [| |apply factor_mul; [| |exact Ff|exact Fg]|exact Fh]]; lra. }
  setoid_replace (s * ((b - a) * f / u * g) * h)%Q with (s / u * (b - a) * (f * g * h))%Q by (field; lra).
  set (v := (s / u * (b - a))%Q). set (k := (f * g * h)%Q) in *. clearbody v k.
  setoid_replace (v * k - v)%Q with ((k - 1) * v)%Q by ring. rewrite Qabs_Qmult. apply Qmult_le_compat_r; [|apply Qabs_nonneg].
  destruct F as [F1 F2]. apply Qabs_Qle_condition. split; lra.
Qed.

(** The test for the end of the search. *)
Lemma stop_test sqr m en p q dr : sqrt_approx sqr -> let s := s_step m in (0 < s)%Q -> close dr p q -> (dr <= (1#40) * s)%Q ->
  ((dist2 q en <= (749#1000) * (s * s))%Q -> s_stop sqr m en p = true) /\
  (((13#10) * (s * s) <= dist2 q en)%Q -> s_stop sqr m en p = false).
Proof.
  intros SQ s Hs [C0 C1] HD. unfold s_stop. fold s.
  destruct (norm2_rel N (fst en) (snd en) (fst p) (snd p)) as [N0 N1]. set (v := fadd _ _) in *.
  set (b := ((fst en - fst p) * (fst en - fst p) + (snd en - snd p) * (snd en - snd p))%Q) in *.
  assert (B0 : (0 <= b)%Q). { unfold b. pose proof (square_nonneg (fst en - fst p)). pose proof (square_nonneg (snd en - snd p)). lra. }
  assert (U : (0 < ulp)%Q) by reflexivity. assert (U1 : (5 * ulp <= 1 # 1000)%Q) by discriminate.
  assert (UB : (5 * ulp * b <= (1#1000) * b)%Q) by (apply Qmult_le_compat_r; auto). 
  assert (V0 : ((999#1000) * b <= v)%Q) by lra. assert (V1 : (v <= (1001#1000) * b)%Q) by lra. clearbody v.
  assert (VP : (0 <= v)%Q) by lra. destruct (SQ v VP) as (S0 & S1 & S2). set (g := sqr v) in *. clearbody g.
  assert (DR : (0 <= dr)%Q) by (eapply Qle_trans; [apply Qabs_nonneg|exact C0]).
  assert (SS : (0 < s * s)%Q) by (apply Qmult_lt_0_compat; auto). 
  split; intros K.
  - apply Qlt_bool_iff. apply sq_lt; [lra|].
    assert (P : (b <= ((433#500) * s + (3#2) * dr) * ((433#500) * s + (3#2) * dr))%Q).
    { unfold b. apply (norm_perturb (fst en - fst q) (snd en - snd q)); auto.
      - lra.
      - unfold dist2 in K. lra.
      - rewrite <- Qabs_opp. eapply Qle_trans; [|exact C0]. apply Qle_lteq. right. apply Qabs_wd. ring.
      - rewrite <- Qabs_opp. eapply Qle_trans; [|exact C1]. apply Qle_lteq. right. apply Qabs_wd. ring. }
    assert (P2 : (b <= (904#1000) * s * ((904#1000) * s))%Q) by (eapply Qle_trans; [exact P|]; apply square_mono; lra).
    lra.
  - destruct (Qlt_bool g s) eqn:T; [|reflexivity]. exfalso. apply Qlt_bool_iff in T.
    assert (GS : (g * g <= s * s)%Q) by (apply square_mono; lra).
    assert (P : (b <= (1056#1000) * s * ((1056#1000) * s))%Q) by lra.
    assert (P2 : (dist2 q en <= ((1056#1000) * s + (3#2) * dr) * ((1056#1000) * s + (3#2) * dr))%Q).
    { unfold dist2. apply (norm_perturb (fst en - fst p) (snd en - snd p)); auto.
      - lra.
      - eapply Qle_trans; [|exact C0]. apply Qle_lteq. right. apply Qabs_wd. ring.
      - eapply Qle_trans; [|exact C1]. apply Qle_lteq. right. apply Qabs_wd. ring. }
    assert (P3 : (dist2 q en <= (1094#1000) * s * ((1094#1000) * s))%Q) by (eapply Qle_trans; [exact P2|]; apply square_mono; lra).
    lra.
Qed.

(** The search, in numbers: u the rounded length of the segment, J the step at which it
    stops at the latest. *)
Record search (sqr : Q -> Q) (W : Z) (m : cmap) (st en dir : vec) (u d : Q) (J : nat) : Prop :=
  { se_u : (0 < u)%Q;
    se_d : (d * u == s_step m)%Q;
    se_low : ((899#1000) * dist2 st en <= u * u)%Q;
    se_high : (u * u <= (1102#1000) * dist2 st en)%Q;
    se_J : (1 <= J)%nat;
    se_end : (- ((82#100) * s_step m) <= u - inject_Z (Z.of_nat J) * s_step m /\ u - inject_Z (Z.of_nat J) * s_step m <= (82#100) * s_step m)%Q;
    se_at : forall k, (k <= J)%nat -> close (drift W m) (s_at m dir st k) (along st en (inject_Z (Z.of_nat k) * d)) }.

Lemma step_range m : (4 * dbl_eps <= resn m)%Q -> ((74#100) * resn m <= s_step m /\ s_step m <= (1001#1000) * resn m)%Q.
Proof.
  intros HE. assert (P : (0 < dbl_eps)%Q) by reflexivity. unfold s_step, fsub.
  destruct (nr N (resn m - dbl_eps)%Q (resn m)) as [A B]; [lra|lra|]. assert (UB : (ulp * resn m <= (1#1000) * resn m)%Q) by (apply Qmult_le_compat_r; [discriminate|lra]).
  split; lra.
Qed.

Lemma along_bound a b t A k r : (0 <= t)%Q -> (Qabs a <= A)%Q -> (Qabs b <= A)%Q -> ((t - 1) * Qabs (b - a) <= k * r)%Q -> (0 <= k * r)%Q ->
  (Qabs (a + t * (b - a)) <= A + k * r)%Q.
Proof.
  intros T0 HA HB HT HK. apply Qabs_Qle_condition in HA as [A0 A1]. apply Qabs_Qle_condition in HB as [B0 B1].
  destruct (Qlt_le_dec t 1) as [L|L].
  - assert (0 <= t * (A - b))%Q by (apply Qmult_le_0_compat; lra). assert (0 <= t * (A + b))%Q by (apply Qmult_le_0_compat; lra).
    assert (0 <= (1 - t) * (A - a))%Q by (apply Qmult_le_0_compat; lra). assert (0 <= (1 - t) * (A + a))%Q by (apply Qmult_le_0_compat; lra).
    apply Qabs_Qle_condition. split; lra.
  - setoid_replace (a + t * (b - a))%Q with (b + (t - 1) * (b - a))%Q by ring.
    assert (K : (Qabs ((t - 1) * (b - a)) <= k * r)%Q) by (rewrite Qabs_Qmult, (Qabs_pos (t - 1)) by lra; exact HT).
    apply Qabs_Qle_condition in K as [K0 K1]. apply Qabs_Qle_condition. split; lra.
Qed.

Lemma search_ok sqr W m st en : sqrt_approx sqr -> 1 <= W <= 2 ^ 20 -> (0 < resn m)%Q -> (4 * dbl_eps <= resn m)%Q ->
  (resn m * resn m <= 25 * dist2 st en)%Q -> let A := (inject_Z W * resn m)%Q in
  (Qabs (fst st) <= A)%Q -> (Qabs (snd st) <= A)%Q -> (Qabs (fst en) <= A)%Q -> (Qabs (snd en) <= A)%Q ->
  let dx := fsub (fst en) (fst st) in let dy := fsub (snd en) (snd st) in
  let z := fadd (fmul dx dx) (fmul dy dy) in
  (0 < z)%Q /\ exists d J, search sqr W m st en (fdiv dx (sqr z), fdiv dy (sqr z)) (sqr z) d J.
Proof.
  intros SQ HW Hr HE HD A S0 S1 E0 E1 dx dy z. destruct (step_range m HE) as [s1 s2].
  set (s := s_step m) in *. set (r := resn m) in *. assert (Hs : (0 < s)%Q) by lra.
  destruct (norm2_rel N (fst en) (snd en) (fst st) (snd st)) as [Z0 Z1]. fold dx dy z in Z0, Z1.
  assert (ED : ((fst en - fst st) * (fst en - fst st) + (snd en - snd st) * (snd en - snd st) == dist2 st en)%Q) by reflexivity.
  rewrite ED in Z0, Z1. clear ED. set (D2 := dist2 st en) in *.
  assert (RR : (0 < r * r)%Q) by (apply Qmult_lt_0_compat; auto). assert (D0 : (0 < D2)%Q) by lra.
  assert (UB : (5 * ulp * D2 <= (1#1000) * D2)%Q) by (apply Qmult_le_compat_r; [discriminate|lra]).
  assert (zl : ((999#1000) * D2 <= z)%Q) by lra. assert (zh : (z <= (1001#1000) * D2)%Q) by lra. clear Z0 Z1 UB.
  split; [lra|]. destruct (SQ z) as (U0 & U1 & U2); [lra|]. set (u := sqr z) in *.
  assert (ul : ((899#1000) * D2 <= u * u)%Q) by lra. assert (uh : (u * u <= (1102#1000) * D2)%Q) by lra.
  assert (Hu : (0 < u)%Q). { apply Qnot_le_lt. intros K. assert (Z : (u == 0)%Q) by lra. rewrite Z in ul. lra. }
  assert (SS : (s * s <= (1001#1000) * r * ((1001#1000) * r))%Q) by (apply square_mono; lra).
  assert (su : ((18#100) * s <= u)%Q). { apply square_le; [lra|]. lra. }
  set (d := (s / u)%Q). assert (Hd : (d * u == s)%Q) by (unfold d; field; lra).
  assert (Hd0 : (0 < d)%Q) by (unfold d; apply Qlt_shift_div_l; lra).
  (* the number of steps *)
  set (J0 := Qfloor (u / s + (1#2))). set (J := Z.to_nat (Z.max 1 J0)).
  assert (F1 : (inject_Z J0 <= u / s + (1#2))%Q) by apply Qfloor_le.
  assert (F2 : (u / s + (1#2) < inject_Z (J0 + 1))%Q) by apply Qlt_floor.
  rewrite inject_Z_plus in F2. change (inject_Z 1) with 1%Q in F2.
  assert (F3 : (u / s * s == u)%Q) by (field; lra). set (us := (u / s)%Q) in *.
  assert (US : (us <= (41#10) * inject_Z W)%Q).
  { assert (D8 : (D2 <= 8 * (A * A))%Q).
    { assert (Q1 : forall a b, (Qabs a <= A -> Qabs b <= A -> (b - a) * (b - a) <= 4 * (A * A))%Q).
      { intros a b Ka Kb. apply Qabs_Qle_condition in Ka as [a0 a1]. apply Qabs_Qle_condition in Kb as [b0 b1].
        setoid_replace (4 * (A * A))%Q with ((2 * A) * (2 * A))%Q by ring. rewrite <- (abs_sq (b - a)). apply square_mono; [apply Qabs_nonneg|].
        apply Qabs_Qle_condition. split; lra. }
      unfold D2, dist2. pose proof (Q1 _ _ S0 E0). pose proof (Q1 _ _ S1 E1). lra. }
    assert (A0 : (0 <= A)%Q) by (eapply Qle_trans; [apply Qabs_nonneg|exact S0]).
    assert (AA : (0 <= A * A)%Q) by (apply Qmult_le_0_compat; auto).
    assert (u3 : (u <= (297#100) * A)%Q). { apply square_le; [lra|]. lra. }
    unfold us. apply Qle_shift_div_r; [exact Hs|]. apply Qle_trans with (1 := u3). unfold A.
    setoid_replace ((297#100) * (inject_Z W * r))%Q with (inject_Z W * ((297#100) * r))%Q by ring.
    setoid_replace ((41#10) * inject_Z W * s)%Q with (inject_Z W * ((41#10) * s))%Q by ring.
    assert (W0 : (0 < inject_Z W)%Q) by (change 0%Q with (inject_Z 0); rewrite <- Zlt_Qlt; lia).
    apply Qmult_le_l; [exact W0|]. lra. }
  assert (W1 : (1 <= inject_Z W)%Q) by (change 1%Q with (inject_Z 1); rewrite <- Zle_Qle; lia).
  assert (JP : (1 <= J)%nat) by (unfold J; lia).
  assert (J6 : (inject_Z (Z.of_nat J) <= 6 * inject_Z W)%Q).
  { unfold J. rewrite Z2Nat.id by lia. destruct (Z_le_gt_dec 1 J0); [rewrite Z.max_r by lia; lra|rewrite Z.max_l by lia; change (inject_Z 1) with 1%Q; lra]. }
  assert (JB : (- ((82#100) * s) <= u - inject_Z (Z.of_nat J) * s /\ u - inject_Z (Z.of_nat J) * s <= (82#100) * s)%Q).
  { unfold J. rewrite Z2Nat.id by lia. destruct (Z_le_gt_dec 1 J0).
    - rewrite Z.max_r by lia. assert (K0 : (0 <= (us + (1#2) - inject_Z J0) * s)%Q) by (apply Qmult_le_0_compat; lra).
      assert (K1 : (0 <= (inject_Z J0 + 1 - (us + (1#2))) * s)%Q) by (apply Qmult_le_0_compat; lra). split; lra.
    - rewrite Z.max_l by lia. change (inject_Z 1) with 1%Q.
      assert (K : (inject_Z J0 <= 0)%Q) by (change 0%Q with (inject_Z 0); rewrite <- Zle_Qle; lia).
      assert (K1 : (0 <= ((1#2) - us) * s)%Q) by (apply Qmult_le_0_compat; lra). split; lra. }
  clearbody J. clear J0 F1 F2.
  exists d, J. constructor; auto. fold s in JB.
  (* components of one step *)
  assert (DD : forall a, (a * a <= D2)%Q -> (Qabs (d * a) <= (106#100) * s)%Q).
  { intros a Ka. rewrite Qabs_Qmult, (Qabs_pos d) by lra. apply square_le; [lra|].
    setoid_replace (d * Qabs a * (d * Qabs a))%Q with (d * d * (Qabs a * Qabs a))%Q by ring. rewrite abs_sq.
    assert (dd : (0 < d * d)%Q) by (apply Qmult_lt_0_compat; auto).
    assert (K1 : (d * d * (a * a) <= d * d * D2)%Q) by (apply Qmult_le_l; auto).
    assert (K2 : (d * d * ((899#1000) * D2) <= d * d * (u * u))%Q) by (apply Qmult_le_l; auto).
    assert (K3 : (d * d * (u * u) == s * s)%Q) by (rewrite <- Hd; ring). rewrite K3 in K2. assert (0 < s * s)%Q by (apply Qmult_lt_0_compat; auto). lra. }
  set (B := (2 * A)%Q). assert (A0 : (0 <= A)%Q) by (eapply Qle_trans; [apply Qabs_nonneg|exact S0]).
  assert (rA : (r <= A)%Q). { unfold A. setoid_replace r with (1 * r)%Q at 1 by ring. apply Qmult_le_compat_r; lra. }
  assert (JT : forall k, (k <= J)%nat -> (0 <= inject_Z (Z.of_nat k) * d /\ (inject_Z (Z.of_nat k) * d - 1) <= (82#100) * d)%Q).
  { intros k Hk. assert (k0 : (0 <= inject_Z (Z.of_nat k))%Q) by (change 0%Q with (inject_Z 0); rewrite <- Zle_Qle; lia).
    assert (kJ : (inject_Z (Z.of_nat k) <= inject_Z (Z.of_nat J))%Q) by (rewrite <- Zle_Qle; lia).
    split; [apply Qmult_le_0_compat; lra|]. apply Qnot_lt_le. intros K.
    assert (K2 : (0 < (inject_Z (Z.of_nat k) * d - 1 - (82#100) * d) * u)%Q) by (apply Qmult_lt_0_compat; lra).
    assert (K3 : (inject_Z (Z.of_nat k) * d * u == inject_Z (Z.of_nat k) * s)%Q) by (rewrite <- Hd; ring).
    assert (K4 : ((inject_Z (Z.of_nat k) * d - 1 - (82#100) * d) * u == inject_Z (Z.of_nat k) * d * u - u - (82#100) * (d * u))%Q) by ring.
    rewrite K4, K3, Hd in K2. assert (K5 : (0 <= (inject_Z (Z.of_nat J) - inject_Z (Z.of_nat k)) * s)%Q) by (apply Qmult_le_0_compat; lra). lra. }
  assert (AX : forall a b x, (Qabs a <= A)%Q -> (Qabs b <= A)%Q -> ((b - a) * (b - a) <= D2)%Q -> x 0%nat = a ->
    (forall k, x (S k) = fadd (x k) (fmul s (fdiv (fsub b a) u))) ->
    forall k, (k <= J)%nat -> (Qabs (x k - (a + inject_Z (Z.of_nat k) * d * (b - a))) <= drift W m)%Q).
  { intros a b x Ka Kb Kd X0 XS k Hk. pose proof (DD _ Kd) as KD.
    assert (K := sample_axis a (fmul s (fdiv (fsub b a) u)) (b - a) d B J).
    eapply Qle_trans; [apply K; auto|].
    - unfold B. lra.
    - lra.
    - unfold d. now apply step_rel.
    - unfold B. lra.
    - intros j Hj. destruct (JT j Hj) as [T0 T1]. eapply Qle_trans; [apply (along_bound _ _ _ A 1 r)|]; auto.
      + assert (K1 : ((inject_Z (Z.of_nat j) * d - 1) * Qabs (b - a) <= (82#100) * d * Qabs (b - a))%Q) by (apply Qmult_le_compat_r; [lra|apply Qabs_nonneg]).
        rewrite Qabs_Qmult, (Qabs_pos d) in KD by lra. 
        setoid_replace ((82#100) * d * Qabs (b - a))%Q with ((82#100) * (d * Qabs (b - a)))%Q in K1 by ring. lra.
      + lra.
      + unfold B. lra.
    - apply Qle_trans with (6 * inject_Z W * (9 * ulp))%Q; [apply Qmult_le_compat_r; [exact J6|discriminate]|].
      apply Qle_trans with (6 * inject_Z (2 ^ 20) * (9 * ulp))%Q; [|vm_compute; discriminate].
      apply Qmult_le_compat_r; [|discriminate]. apply Qmult_le_l; [reflexivity|]. rewrite <- Zle_Qle. lia.
    - assert (kJ : (inject_Z (Z.of_nat k) <= inject_Z (Z.of_nat J))%Q) by (rewrite <- Zle_Qle; lia).
      set (U := (ulp * A)%Q). assert (HU : (0 <= U)%Q) by (apply Qmult_le_0_compat; [discriminate|lra]).
      setoid_replace (9 * ulp * B)%Q with (18 * U)%Q by (unfold U, B; ring).
      rewrite drift_eq. fold r. fold A. fold U.
      apply Qle_trans with (6 * inject_Z W * (18 * U))%Q; [apply Qmult_le_compat_r; lra|].
      assert (0 <= inject_Z W * U)%Q by (apply Qmult_le_0_compat; lra). lra. }
  intros k Hk. pose proof (square_nonneg (fst en - fst st)). pose proof (square_nonneg (snd en - snd st)).
  split; unfold along; cbn [fst snd].
  - apply (AX (fst st) (fst en) (fun k => fst (s_at m (fdiv dx u, fdiv dy u) st k))); auto. unfold D2, dist2. lra.
  - apply (AX (snd st) (snd en) (fun k => snd (s_at m (fdiv dx u, fdiv dy u) st k))); auto. unfold D2, dist2. lra.
Qed.
End Samples.
