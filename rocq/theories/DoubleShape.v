(** Circle and polygon iterators with rounded arithmetic, for shapes well inside the
    map. *)
From Coq Require Import ZArith QArith Qround Qabs Qfield String List Bool Lia Lqa.
From Verif Require Import Base Mat GridMapMath GridIter CostMap Iterators Spec History BaseLemmas GeoLemmas CoreProofs CoreProofs2 CoreFinal IterProofs
  MoveProofs SubmapProofs FilterProofs DoubleSpec DoubleGeo DoubleMap DoubleSub.
Import ListNotations.
Open Scope Z_scope.

(** ** Relative errors *)

(** [a] is [b] up to k roundings, as a factor. *)
Definition factor (k : Q) (f : Q) : Prop := (1 - k * ulp <= f /\ f <= 1 + k * ulp)%Q.

Lemma near_rel {E : Env} (N : Near E) x : exists f, (rnd x == x * f)%Q /\ factor 1 f.
Proof.
  pose proof (N x) as K. destruct (Qeq_dec x 0) as [Z|Z].
  - exists 1%Q. assert (AZ : (Qabs x == 0)%Q) by (rewrite Z; reflexivity). rewrite AZ in K. apply Qabs_Qle_condition in K as [K1 K2].
    split; [lra|]. unfold factor, ulp. split; lra.
  - exists (rnd x / x)%Q. split; [field; auto|].
    assert (F : (rnd x / x == 1 + (rnd x - x) / x)%Q) by (field; auto). unfold factor. rewrite F.
    assert (A : (Qabs ((rnd x - x) / x) <= ulp)%Q).
    { unfold Qdiv. rewrite Qabs_Qmult, Qabs_Qinv. apply Qle_shift_div_r; auto.
      assert (Qabs x == 0 -> x == 0)%Q. { intros H. pose proof (Qle_Qabs x). pose proof (Qle_Qabs (- x)) as Q. rewrite Qabs_opp in Q. lra. }
      pose proof (Qabs_nonneg x). apply Qle_lteq in H0 as [H0|H0]; auto. exfalso. apply Z. symmetry in H0. auto. }
    apply Qabs_Qle_condition in A as [A1 A2]. split; lra.
Qed.

Lemma factor_mul a b f g : (0 <= a <= 100)%Q -> (0 <= b <= 100)%Q -> factor a f -> factor b g -> factor (a + b + (1#10)) (f * g).
Proof.
  intros Ha Hb [F1 F2] [G1 G2]. unfold factor.
  assert (U : (ulp * (ulp * 10000) <= (1#10) * ulp)%Q) by (unfold ulp; discriminate).
  assert (AB : (a * b <= 10000)%Q). { apply Qle_trans with (100 * b)%Q; [apply Qmult_le_compat_r; lra|lra]. }
  assert (AB0 : (0 <= a * b)%Q) by (apply Qmult_le_0_compat; lra).
  assert (UAB : ((a * ulp) * (b * ulp) <= (1#10) * ulp)%Q).
  { setoid_replace ((a * ulp) * (b * ulp))%Q with ((ulp * ulp) * (a * b))%Q by ring.
    apply Qle_trans with ((ulp * ulp) * 10000)%Q; [apply Qmult_le_l; [reflexivity|auto]|]. lra. }
  assert (A1 : (- (a * ulp) <= f - 1 <= a * ulp)%Q) by lra. assert (B1 : (- (b * ulp) <= g - 1 <= b * ulp)%Q) by lra.
  assert (P0 : (0 <= a * ulp)%Q) by (apply Qmult_le_0_compat; [lra|discriminate]).
  assert (Q0 : (0 <= b * ulp)%Q) by (apply Qmult_le_0_compat; [lra|discriminate]).
  setoid_replace (f * g)%Q with (1 + (f - 1) + (g - 1) + (f - 1) * (g - 1))%Q by ring.
  set (x := (f - 1)%Q) in *. set (y := (g - 1)%Q) in *. set (p := (a * ulp)%Q) in *. set (q := (b * ulp)%Q) in *.
  assert (E1 : ((a + b + (1#10)) * ulp == p + q + (1#10) * ulp)%Q) by (unfold p, q; ring). rewrite E1.
  clearbody x y p q.
  assert (M1 : (x * y <= p * q)%Q).
  { destruct (Qlt_le_dec y 0) as [C|C].
    - assert (0 <= (p + x) * (- y))%Q by (apply Qmult_le_0_compat; lra). assert (0 <= p * (q + y))%Q by (apply Qmult_le_0_compat; lra). lra.
    - assert (0 <= (p - x) * y)%Q by (apply Qmult_le_0_compat; lra). assert (0 <= p * (q - y))%Q by (apply Qmult_le_0_compat; lra). lra. }
  assert (M2 : (- (p * q) <= x * y)%Q).
  { destruct (Qlt_le_dec y 0) as [C|C].
    - assert (0 <= (p - x) * (- y))%Q by (apply Qmult_le_0_compat; lra). assert (0 <= p * (q + y))%Q by (apply Qmult_le_0_compat; lra). lra.
    - assert (0 <= (p + x) * y)%Q by (apply Qmult_le_0_compat; lra). assert (0 <= p * (q - y))%Q by (apply Qmult_le_0_compat; lra). lra. }
  split; lra.
Qed.

Lemma factor_inv a f : (0 <= a <= 100)%Q -> factor a f -> factor (a + (1#10)) (/ f) /\ (0 < f)%Q.
Proof.
  intros Ha [F1 F2]. assert (S : (a * ulp <= 100 * ulp)%Q) by (apply Qmult_le_compat_r; [lra|discriminate]).
  assert (P0 : (0 <= a * ulp)%Q) by (apply Qmult_le_0_compat; [lra|discriminate]).
  assert (FP : (0 < f)%Q) by (unfold ulp in *; lra). split; auto.
  assert (E1 : ((a + (1#10)) * ulp == a * ulp + (1#10) * ulp)%Q) by ring. unfold factor. rewrite E1.
  setoid_replace (/ f)%Q with (1 / f)%Q by (field; lra).
  assert (UU : (a * ulp * (a * ulp) <= (1#100) * ulp)%Q).
  { apply Qle_trans with ((100 * ulp) * (100 * ulp))%Q; [|unfold ulp; discriminate].
    apply Qle_trans with (a * ulp * (100 * ulp))%Q; [|apply Qmult_le_compat_r; [auto|discriminate]].
    rewrite (Qmult_comm (a * ulp) (100 * ulp)). apply Qmult_le_compat_r; auto. }
  assert (U1 : (a * ulp * ((1#10) * ulp) <= (1#100) * ulp)%Q).
  { apply Qle_trans with ((100 * ulp) * ((1#10) * ulp))%Q; [|unfold ulp; discriminate]. apply Qmult_le_compat_r; [auto|discriminate]. }
  assert (UP : (0 < ulp)%Q) by reflexivity.
  set (p := (a * ulp)%Q) in *. set (v := ((1#10) * ulp)%Q) in *. assert (V : (v <= 1#2)%Q) by (unfold v, ulp; discriminate).
  assert (VP : (0 < v)%Q) by (unfold v; lra). assert (UE : ((1#100) * ulp == (1#10) * v)%Q) by (unfold v; ring). rewrite UE in UU, U1.
  assert (P2 : (p <= 1#2)%Q) by (apply Qle_trans with (100 * ulp)%Q; [exact S|discriminate]).
  clearbody p v. assert (PP : (0 <= p * p)%Q) by (apply Qmult_le_0_compat; lra). assert (PV : (0 <= p * v)%Q) by (apply Qmult_le_0_compat; lra). split.
  - apply Qle_shift_div_l; auto.
    apply Qle_trans with ((1 - (p + v)) * (1 + p))%Q; [|lra].
    rewrite (Qmult_comm _ f), (Qmult_comm _ (1 + p)). apply Qmult_le_compat_r; lra.
  - apply Qle_shift_div_r; auto.
    apply Qle_trans with ((1 + (p + v)) * (1 - p))%Q; [lra|].
    rewrite (Qmult_comm _ f), (Qmult_comm _ (1 - p)). apply Qmult_le_compat_r; lra.
Qed.

Lemma factor_le a b f : (a <= b)%Q -> factor a f -> factor b f.
Proof. intros H [F1 F2]. assert (a * ulp <= b * ulp)%Q by (apply Qmult_le_compat_r; [auto|discriminate]). split; lra. Qed.

Section Ops.
Context {E : Env} (N : Near E).
Lemma fadd_rel x y : exists f, (fadd x y == (x + y) * f)%Q /\ factor 1 f.
Proof. apply (near_rel N). Qed.
Lemma fsub_rel x y : exists f, (fsub x y == (x - y) * f)%Q /\ factor 1 f.
Proof. apply (near_rel N). Qed.
Lemma fmul_rel x y : exists f, (fmul x y == (x * y) * f)%Q /\ factor 1 f.
Proof. apply (near_rel N). Qed.
Lemma fdiv_rel x y : exists f, (fdiv x y == (x / y) * f)%Q /\ factor 1 f.
Proof. apply (near_rel N). Qed.
End Ops.

(** A sum of non-negative terms, each up to a factor. *)
Lemma factor_sum a x y f g : (0 <= x)%Q -> (0 <= y)%Q -> factor a f -> factor a g ->
  ((1 - a * ulp) * (x + y) <= x * f + y * g /\ x * f + y * g <= (1 + a * ulp) * (x + y))%Q.
Proof.
  intros X Y [F1 F2] [G1 G2].
  assert (0 <= x * (f - (1 - a * ulp)))%Q by (apply Qmult_le_0_compat; lra).
  assert (0 <= x * (1 + a * ulp - f))%Q by (apply Qmult_le_0_compat; lra).
  assert (0 <= y * (g - (1 - a * ulp)))%Q by (apply Qmult_le_0_compat; lra).
  assert (0 <= y * (1 + a * ulp - g))%Q by (apply Qmult_le_0_compat; lra). split; lra.
Qed.

(** ** The length of a vector *)

Lemma abs_sq x : (Qabs x * Qabs x == x * x)%Q.
Proof. destruct (Qlt_le_dec x 0); [rewrite Qabs_neg by lra|rewrite Qabs_pos by lra]; ring. Qed.

Lemma norm_perturb x y x' y' S e : (0 <= S)%Q -> (0 <= e)%Q -> (x * x + y * y <= S * S)%Q ->
  (Qabs (x' - x) <= e)%Q -> (Qabs (y' - y) <= e)%Q ->
  (x' * x' + y' * y' <= (S + (3#2) * e) * (S + (3#2) * e))%Q.
Proof.
  intros HS He H Hx Hy.
  assert (B : forall a a', (Qabs (a' - a) <= e -> a' * a' <= Qabs a * Qabs a + 2 * (e * Qabs a) + e * e)%Q).
  { intros a a' K. apply Qabs_Qle_condition in K as [K1 K2]. 
    assert (A : (Qabs a' <= Qabs a + e)%Q).
    { pose proof (Qle_Qabs a). pose proof (Qle_Qabs (- a)) as Q. rewrite Qabs_opp in Q.
      apply Qabs_Qle_condition. split; lra. }
    rewrite <- abs_sq. pose proof (Qabs_nonneg a'). pose proof (Qabs_nonneg a).
    setoid_replace (Qabs a * Qabs a + 2 * (e * Qabs a) + e * e)%Q with ((Qabs a + e) * (Qabs a + e))%Q by ring.
    apply Qle_trans with ((Qabs a + e) * Qabs a')%Q; [apply Qmult_le_compat_r; auto|].
    rewrite (Qmult_comm _ (Qabs a')). apply Qmult_le_compat_r; lra. }
  pose proof (B x x' Hx) as Bx. pose proof (B y y' Hy) as By.
  pose proof (Qabs_nonneg x) as X0. pose proof (Qabs_nonneg y) as Y0.
  pose proof (abs_sq x) as Ex. pose proof (abs_sq y) as Ey. rewrite <- Ex, <- Ey in H. rewrite Ex in Bx. rewrite Ey in By. rewrite <- Ex in Bx. rewrite <- Ey in By.
  set (u := Qabs x) in *. set (v := Qabs y) in *. clearbody u v.
  assert (UV : (u + v <= (3#2) * S)%Q).
  { apply Qnot_lt_le. intros K.
    assert (0 <= (u - v) * (u - v))%Q by (destruct (Qlt_le_dec (u - v) 0); nra).
    assert ((3#2) * S * ((3#2) * S) < (u + v) * (u + v))%Q by nra.
    assert (0 <= S * S)%Q by (apply Qmult_le_0_compat; auto). lra. }
  assert (0 <= e * ((3#2) * S - (u + v)))%Q by (apply Qmult_le_0_compat; lra).
  assert (0 <= e * e)%Q by (apply Qmult_le_0_compat; auto). lra.
Qed.

(** ** The rounded test of a circle *)
Section CircleTest.
Context {E : Env} (N : Near E).

Lemma norm2_rel x y cx cy : let dx := fsub x cx in let dy := fsub y cy in
  let q := ((x - cx) * (x - cx) + (y - cy) * (y - cy))%Q in
  ((1 - 5 * ulp) * q <= fadd (fmul dx dx) (fmul dy dy) /\ fadd (fmul dx dx) (fmul dy dy) <= (1 + 5 * ulp) * q)%Q.
Proof.
  intros dx dy q. destruct (fsub_rel N x cx) as (f & Ef & Ff). destruct (fsub_rel N y cy) as (g & Eg & Fg). fold dx in Ef. fold dy in Eg.
  destruct (fmul_rel N dx dx) as (h & Eh & Fh). destruct (fmul_rel N dy dy) as (k & Ek & Fk).
  destruct (fadd_rel N (fmul dx dx) (fmul dy dy)) as (l & El & Fl).
  rewrite El, Eh, Ek, Ef, Eg.
  assert (F1 : factor (45#10) ((f * f * h) * l)).
  { eapply factor_le; [|apply factor_mul; [| |apply factor_mul; [| |apply factor_mul; [| |exact Ff|exact Ff]|exact Fh]|exact Fl]]; lra. }
  assert (G1 : factor (45#10) ((g * g * k) * l)).
  { eapply factor_le; [|apply factor_mul; [| |apply factor_mul; [| |apply factor_mul; [| |exact Fg|exact Fg]|exact Fk]|exact Fl]]; lra. }
  assert (EQ : (((x - cx) * f * ((x - cx) * f) * h + (y - cy) * g * ((y - cy) * g) * k) * l ==
    (x - cx) * (x - cx) * (f * f * h * l) + (y - cy) * (y - cy) * (g * g * k * l))%Q) by ring.
  rewrite EQ. assert (X0 := square_nonneg (x - cx)). assert (Y0 := square_nonneg (y - cy)).
  apply factor_sum; auto; eapply factor_le; try eassumption; discriminate.
Qed.

Lemma square_le a b : (0 <= b)%Q -> (a * a <= b * b)%Q -> (a <= b)%Q.
Proof. intros Hb H. apply Qnot_lt_le. intros K. nra. Qed.

Lemma square_mono a b : (0 <= a)%Q -> (a <= b)%Q -> (a * a <= b * b)%Q.
Proof.
  intros Ha H. apply Qle_trans with (b * a)%Q; [apply Qmult_le_compat_r; lra|]. rewrite (Qmult_comm b a).
  apply Qmult_le_compat_r; lra.
Qed.

(** [p] is the rounded position of a cell with centre [q]; [A] bounds the radius, d
    is [ulp * A]. *)
Lemma circle_test c R p q A : (0 <= R)%Q -> (R <= A)%Q -> (Qabs (fst p - fst q) <= 16 * (ulp * A))%Q -> (Qabs (snd p - snd q) <= 16 * (ulp * A))%Q ->
  let t := Qle_bool (fadd (fmul (fsub (fst p) (fst c)) (fsub (fst p) (fst c))) (fmul (fsub (snd p) (snd c)) (fsub (snd p) (snd c)))) (fmul R R) in
  (t = true -> in_circle c (R + 32 * (ulp * A)) q) /\
  ((32 * (ulp * A) <= R)%Q -> in_circle c (R - 32 * (ulp * A)) q -> t = true).
Proof.
  intros HR RA P0 P1 t. unfold t. rewrite Qle_bool_iff. 
  destruct (norm2_rel (fst p) (snd p) (fst c) (snd c)) as [N1 N2]. cbn zeta in N1, N2.
  set (v := fadd _ _) in *. clearbody v. destruct (fmul_rel N R R) as (f & Ef & Ff). rewrite Ef. destruct Ff as [F1 F2].
  assert (RR : (0 <= R * R)%Q) by (apply Qmult_le_0_compat; auto).
  assert (DA : (ulp * R <= ulp * A)%Q) by (apply Qmult_le_l; [reflexivity|auto]).
  assert (D0 : (0 <= ulp * R)%Q) by (apply Qmult_le_0_compat; [discriminate|auto]).
  set (q2 := ((fst p - fst c) * (fst p - fst c) + (snd p - snd c) * (snd p - snd c))%Q) in *.
  assert (q20 : (0 <= q2)%Q). { unfold q2. pose proof (square_nonneg (fst p - fst c)). pose proof (square_nonneg (snd p - snd c)). lra. }
  set (d := (ulp * A)%Q) in *. clear t.
  assert (FR1 : (R * R * f <= R * R * (1 + 1 * ulp))%Q) by (rewrite !(Qmult_comm (R * R)); apply Qmult_le_compat_r; auto).
  assert (FR2 : (R * R * (1 - 1 * ulp) <= R * R * f)%Q) by (rewrite !(Qmult_comm (R * R)); apply Qmult_le_compat_r; auto).
  split.
  - intros H. unfold in_circle.
    assert (Q1 : (q2 <= (R + 4 * (ulp * R)) * (R + 4 * (ulp * R)))%Q).
    { assert (Q0 : ((1 - 5 * ulp) * q2 <= R * R * (1 + 1 * ulp))%Q) by lra.
      apply Qmult_le_l with (z := (1 - 5 * ulp)%Q); [reflexivity|]. eapply Qle_trans; [exact Q0|].
      setoid_replace ((1 - 5 * ulp) * ((R + 4 * (ulp * R)) * (R + 4 * (ulp * R))))%Q with (R * R * ((1 - 5 * ulp) * (1 + 4 * ulp) * (1 + 4 * ulp)))%Q by ring.
      rewrite !(Qmult_comm (R * R)). apply Qmult_le_compat_r; [discriminate|auto]. }
    eapply Qle_trans; [apply (norm_perturb (fst p - fst c) (snd p - snd c) _ _ (R + 4 * (ulp * R)) (16 * d)); try lra; auto|].
    + rewrite Qabs_Qminus. eapply Qle_trans; [|exact P0]. setoid_replace (fst p - fst c - (fst q - fst c))%Q with (fst p - fst q)%Q by ring. apply Qle_refl.
    + rewrite Qabs_Qminus. eapply Qle_trans; [|exact P1]. setoid_replace (snd p - snd c - (snd q - snd c))%Q with (snd p - snd q)%Q by ring. apply Qle_refl.
    + apply square_mono; lra.
  - intros HB H. unfold in_circle in H.
    assert (Q1 : (q2 <= (R - 8 * d) * (R - 8 * d))%Q).
    { eapply Qle_trans; [apply (norm_perturb (fst q - fst c) (snd q - snd c) _ _ (R - 32 * d) (16 * d)); try lra; auto|].
      - eapply Qle_trans; [|exact P0]. setoid_replace (fst p - fst c - (fst q - fst c))%Q with (fst p - fst q)%Q by ring. apply Qle_refl.
      - eapply Qle_trans; [|exact P1]. setoid_replace (snd p - snd c - (snd q - snd c))%Q with (snd p - snd q)%Q by ring. apply Qle_refl.
      - apply square_mono; lra. }
    assert (Q2 : ((R - 8 * d) * (R - 8 * d) <= (R - 8 * (ulp * R)) * (R - 8 * (ulp * R)))%Q) by (apply square_mono; lra).
    eapply Qle_trans; [exact N2|]. eapply Qle_trans; [|exact FR2].
    apply Qle_trans with ((1 + 5 * ulp) * ((R - 8 * (ulp * R)) * (R - 8 * (ulp * R))))%Q; [apply Qmult_le_l; [reflexivity|lra]|].
    setoid_replace ((1 + 5 * ulp) * ((R - 8 * (ulp * R)) * (R - 8 * (ulp * R))))%Q with (R * R * ((1 + 5 * ulp) * (1 - 8 * ulp) * (1 - 8 * ulp)))%Q by ring.
    rewrite !(Qmult_comm (R * R)). apply Qmult_le_compat_r; [discriminate|auto].
Qed.
End CircleTest.

(** ** Windows *)

(** The same cells with the exact length; the window lemmas only look at sizes and
    indices. *)
Definition exact_of (m : cmap) : cmap :=
  set_geo m (inject_Z (fst (size m)) * resn m, inject_Z (snd (size m)) * resn m)%Q (resn m) (pos m) (start m).

Lemma exact_of_geo W m : dgeo W m -> geo_ok (exact_of m).
Proof. intros G. constructor; cbn; [apply G|apply G|split; cbn; reflexivity|apply G]. Qed.

Lemma start_dec (a : idx) : {a = (0, 0)} + {a <> (0, 0)}.
Proof. destruct a as [x y]. destruct (Z.eq_dec x 0), (Z.eq_dec y 0); [left|right|right|right]; congruence. Defined.

Section Windows.
Context {E : Env} (N : Near E).
Context (W : Z) (HW : W <= 2 ^ 44).

Notation d m := (ulp * (inject_Z W * resn m))%Q.

Lemma corner_double m x p : dgeo W m -> close (2 * d m) x p -> inside_by (- (2 * blur W m)) m p ->
  let i := corner_index m x in let w := world_index m i in
  in_range (size m) i /\
  (inject_Z (fst w) * resn m - 14 * d m <= fst (upper m) - fst p)%Q /\ (fst (upper m) - fst p <= (inject_Z (fst w) + 1) * resn m + 14 * d m)%Q /\
  (inject_Z (snd w) * resn m - 14 * d m <= snd (upper m) - snd p)%Q /\ (snd (upper m) - snd p <= (inject_Z (snd w) + 1) * resn m + 14 * d m)%Q.
Proof.
  intros G [X0 X1] (I0 & I1 & I2 & I3) i w. apply Qabs_Qle_condition in X0 as [X0 X0'], X1 as [X1 X1'].
  pose proof (d_res _ _ G) as Hr. destruct (d_size _ _ G) as [M0 M1]. pose proof (d_start _ _ G) as Hs.
  destruct (axis_hyps _ _ _ _ W Hr M0 (d_len0 _ _ G) (d_far0 _ _ G)) as (a1 & a2 & a3 & a4 & a5).
  destruct (axis_hyps _ _ _ _ W Hr M1 (d_len1 _ _ G) (d_far1 _ _ G)) as (b1 & b2 & b3 & b4 & b5).
  pose proof (small_A W m HW Hr) as HS. pose proof (blur_eq W m) as EB.
  unfold lower, upper in *. cbn [fst snd] in *.
  destruct (corner_cell N _ _ _ _ _ Hr a1 a2 a3 a4 a5 HS (fst x) (fst p)) as (A1 & A2 & A3 & A4); [set (dd := d m) in *; lra..|].
  destruct (corner_cell N _ _ _ _ _ Hr b1 b2 b3 b4 b5 HS (snd x) (snd p)) as (B1 & B2 & B3 & B4); [set (dd := d m) in *; lra..|].
  set (k0 := raw_index1 (bound_position1 (fst x) (fst (len m)) (fst (pos m))) (fst (len m)) (fst (pos m)) (resn m)) in *.
  set (k1 := raw_index1 (bound_position1 (snd x) (snd (len m)) (snd (pos m))) (snd (len m)) (snd (pos m)) (resn m)) in *.
  assert (R : in_range (size m) (k0, k1)) by (split; cbn; lia).
  assert (EI : i = wrap_index (k0, k1) (size m) (start m)) by reflexivity.
  assert (RI : in_range (size m) i) by (rewrite EI; apply wrap_in_range; auto).
  assert (EW : w = (k0, k1)).
  { unfold w. rewrite <- unwrap_world' by auto. rewrite EI. apply unwrap_wrap; auto. }
  rewrite EW. cbn [fst snd]. auto.
Qed.

Lemma centre_upper m i : (fst (centre m i) == fst (upper m) - (inject_Z (fst (world_index m i)) + (1#2)) * resn m)%Q /\
  (snd (centre m i) == snd (upper m) - (inject_Z (snd (world_index m i)) + (1#2)) * resn m)%Q.
Proof. unfold centre, upper, centre1. cbn [fst snd]. split; reflexivity. Qed.

(** Cells whose centre is in the box between pt and pb, up to a quarter of a cell. *)
Definition in_box (m : cmap) (pt pb q : vec) : Prop :=
  (fst pb - (1#4) * resn m <= fst q /\ fst q <= fst pt + (1#4) * resn m /\
   snd pb - (1#4) * resn m <= snd q /\ snd q <= snd pt + (1#4) * resn m)%Q.

Lemma int_le r a b x : (0 < r)%Q -> (x < r)%Q -> (inject_Z a * r <= inject_Z b * r + x)%Q -> a <= b.
Proof.
  intros Hr Hx H. assert (a < b + 1); [|lia]. rewrite Zlt_Qlt. apply Qmult_lt_r with (z := r); auto.
  rewrite inject_Z_plus. change (inject_Z 1) with 1%Q. rewrite Qmult_plus_distr_l, Qmult_1_l. lra.
Qed.

Lemma box_corners m xt xb pt pb : dgeo W m -> close (2 * d m) xt pt -> close (2 * d m) xb pb ->
  inside_by (- (2 * blur W m)) m pt -> inside_by (- (2 * blur W m)) m pb ->
  let s := corner_index m xt in let e := corner_index m xb in
  in_range (size m) s /\ in_range (size m) e /\
  ((fst pb + 64 * d m <= fst pt)%Q -> fst (world_index m s) <= fst (world_index m e)) /\
  ((snd pb + 64 * d m <= snd pt)%Q -> snd (world_index m s) <= snd (world_index m e)) /\
  forall i, in_range (size m) i -> in_box m pt pb (centre m i) ->
    fst (world_index m s) <= fst (world_index m i) <= fst (world_index m e) /\
    snd (world_index m s) <= snd (world_index m i) <= snd (world_index m e).
Proof.
  intros G Ct Cb It Ib s e. pose proof (d_res _ _ G) as Hr. pose proof (small_A W m HW Hr) as HS.
  destruct (corner_double m xt pt G Ct It) as (Rs & s1 & s2 & s3 & s4).
  destruct (corner_double m xb pb G Cb Ib) as (Re & e1 & e2 & e3 & e4).
  fold s in Rs, s1, s2, s3, s4. fold e in Re, e1, e2, e3, e4.
  assert (DP : (0 < d m)%Q).
  { destruct (d_size _ _ G) as [M0 _]. pose proof (d_far0 _ _ G) as F. pose proof (Qabs_nonneg (fst (pos m))) as AP.
    assert (NR : (resn m <= inject_Z (fst (size m)) * resn m)%Q).
    { setoid_replace (resn m) with (1 * resn m)%Q at 1 by ring. apply Qmult_le_compat_r; [|lra].
      change 1%Q with (inject_Z 1). rewrite <- Zle_Qle. lia. }
    unfold ulp. lra. }
  set (dd := d m) in *. clearbody dd.
  assert (T : forall a, ((inject_Z a + 1) * resn m == inject_Z a * resn m + resn m)%Q) by (intros; ring).
  split; auto. split; auto. split; [|split].
  - intros H. apply (int_le (resn m) _ _ (resn m - dd)); auto; [lra|]. rewrite T in e2. lra.
  - intros H. apply (int_le (resn m) _ _ (resn m - dd)); auto; [lra|]. rewrite T in e4. lra.
  - intros i Hi (B1 & B2 & B3 & B4). destruct (centre_upper m i) as [C0 C1]. 
    assert (T2 : forall a, ((inject_Z a + (1#2)) * resn m == inject_Z a * resn m + (1#2) * resn m)%Q) by (intros; ring).
    rewrite T2 in C0, C1. rewrite T in e2, e4.
    set (c0 := fst (centre m i)) in *. set (c1 := snd (centre m i)) in *. clearbody c0 c1.
    split; split; apply (int_le (resn m) _ _ ((99#100) * resn m)); auto; lra.
Qed.

(** Window from unwrapped corners (polygons). *)
Lemma box_double m xt xb pt pb ins f : dgeo W m -> close (2 * d m) xt pt -> close (2 * d m) xb pb ->
  inside_by (- (2 * blur W m)) m pt -> inside_by (- (2 * blur W m)) m pb ->
  (forall i, in_range (size m) i -> ins i = Ok (f i)) ->
  let s := corner_index m xt in let e := corner_index m xb in
  exists vs, filt_visits ins (size m) (start m) s (submap_size_from_corners s e (size m) (start m)) = Ok vs /\
    NoDup vs /\ (forall i, In i vs -> in_range (size m) i /\ f i = true) /\
    (forall i, in_range (size m) i -> in_box m pt pb (centre m i) -> f i = true -> In i vs).
Proof.
  intros G Ct Cb It Ib HF s e. destruct (box_corners m xt xb pt pb G Ct Cb It Ib) as (Rs & Re & _ & _ & K).
  fold s in Rs, K. fold e in Re, K. pose proof (exact_of_geo W m G) as GE.
  assert (SZ : submap_size_from_corners s e (size m) (start m) =
    (fst (world_index m e) - fst (world_index m s) + 1, snd (world_index m e) - snd (world_index m s) + 1)).
  { unfold submap_size_from_corners. rewrite !unwrap_world' by (auto; apply G). reflexivity. }
  destruct (Z_le_gt_dec (fst (world_index m s)) (fst (world_index m e))) as [D|D];
    [destruct (Z_le_gt_dec (snd (world_index m s)) (snd (world_index m e))) as [D'|D']|].
  - destruct (window_unwrapped (exact_of m) s e GE Rs Re D D') as (WO & S1 & S2).
    change (size (exact_of m)) with (size m) in WO, S1, S2. change (start (exact_of m)) with (start m) in WO, S1, S2.
    rewrite (filt_window ins f) by auto. eexists. split; [reflexivity|]. split; [|split].
    + apply NoDup_filter. apply (window_list_spec _ _ _ _ WO).
    + intros i Hi. apply filter_In in Hi as [Hi F]. split; auto. now apply (window_list_world (exact_of m) _ _ i GE WO) in Hi.
    + intros i Ri B F. apply filter_In. split; auto. apply (window_list_world (exact_of m) _ _ i GE WO). 
      change (size (exact_of m)) with (size m). split; auto.
      change (world_index (exact_of m)) with (world_index m). change (start (exact_of m)) with (start m). rewrite S1, S2.
      change (world_index (exact_of m)) with (world_index m).
      destruct (K i Ri B). lia.
  - rewrite (filt_degenerate ins f); auto; [|rewrite SZ; cbn [fst snd]; lia]. eexists. split; [reflexivity|]. split; [|split].
    + apply NoDup_filter. repeat constructor. auto.
    + intros i Hi. apply filter_In in Hi as [[<-|[]] F]. auto.
    + intros i Ri B F. exfalso. destruct (K i Ri B). lia.
  - rewrite (filt_degenerate ins f); auto; [|rewrite SZ; cbn [fst snd]; lia]. eexists. split; [reflexivity|]. split; [|split].
    + apply NoDup_filter. repeat constructor. auto.
    + intros i Hi. apply filter_In in Hi as [[<-|[]] F]. auto.
    + intros i Ri B F. exfalso. destruct (K i Ri B). lia.
Qed.

(** Window from buffer indices (circles and ellipses). *)
Lemma box_naive m xt xb pt pb ins f : dgeo W m -> close (2 * d m) xt pt -> close (2 * d m) xb pb ->
  inside_by (- (2 * blur W m)) m pt -> inside_by (- (2 * blur W m)) m pb ->
  (fst pb + 64 * d m <= fst pt)%Q -> (snd pb + 64 * d m <= snd pt)%Q ->
  (forall i, in_range (size m) i -> ins i = Ok (f i)) ->
  let s := corner_index m xt in let e := corner_index m xb in
  exists vs, filt_visits ins (size m) (start m) s (fst e - fst s + 1, snd e - snd s + 1) = Ok vs /\
    NoDup vs /\ (forall i, In i vs -> in_range (size m) i /\ f i = true) /\
    (start m = (0, 0) -> forall i, in_range (size m) i -> in_box m pt pb (centre m i) -> f i = true -> In i vs).
Proof.
  intros G Ct Cb It Ib L0 L1 HF s e. 
  destruct (box_corners m xt xb pt pb G Ct Cb It Ib) as (Rs & Re & A & B & K).
  specialize (A L0). specialize (B L1). fold s in Rs, A, B, K. fold e in Re, A, B, K. pose proof (exact_of_geo W m G) as GE.
  destruct (start_dec (start m)) as [S|S].
  - destruct (box_double m xt xb pt pb ins f G Ct Cb It Ib HF) as (vs & V & ND & V1 & V2). fold s e in V.
    exists vs. split; auto. rewrite <- V. f_equal. unfold submap_size_from_corners, unwrap_index. rewrite S. reflexivity.
  - destruct (naive_smaller (exact_of m) s e GE Rs Re A B) as [N1 N2].
    change (fst e - fst s + 1, snd e - snd s + 1) with (naive_size s e) in *.
    change (world_index (exact_of m)) with (world_index m) in *.
    destruct (Z_le_gt_dec (fst (naive_size s e)) 0) as [D|D]; [|destruct (Z_le_gt_dec (snd (naive_size s e)) 0) as [D'|D']].
    3: {
      assert (WO : window_ok (size m) (start m) s (naive_size s e)).
      { destruct (world_range W m e G). unfold window_ok.
        change ((fst s - fst (start m)) mod fst (size m)) with (fst (world_index m s)).
        change ((snd s - snd (start m)) mod snd (size m)) with (snd (world_index m s)).
        split; [apply G|]. split; auto. lia. }
      rewrite (filt_window ins f) by auto. eexists. split; [reflexivity|]. split; [|split].
      - apply NoDup_filter. apply (window_list_spec _ _ _ _ WO).
      - intros i Hi. apply filter_In in Hi as [Hi F]. split; auto. now apply (window_list_world (exact_of m) _ _ i GE WO) in Hi.
      - intros Z. contradiction. }
    all: rewrite (filt_degenerate ins f) by auto; eexists; (split; [reflexivity|]); (split; [apply NoDup_filter; repeat constructor; auto|]);
      (split; [intros i; rewrite filter_In; intros [[<-|[]] F]; auto|intros Z; contradiction]).
Qed.

End Windows.

(** ** The iterators *)
Section Shapes.
Context {E : Env} (N : Near E).
Context (W : Z) (HW : W <= 2 ^ 44).

Notation d m := (ulp * (inject_Z W * resn m))%Q.

Lemma inside_bounds m p : dgeo W m -> inside_by (- (2 * blur W m)) m p ->
  (Qabs (fst p) <= inject_Z W * resn m /\ Qabs (snd p) <= inject_Z W * resn m)%Q.
Proof.
  intros G (I0 & I1 & I2 & I3). pose proof (d_res _ _ G) as Hr. destruct (d_size _ _ G) as [M0 M1].
  destruct (axis_hyps _ _ _ _ W Hr M0 (d_len0 _ _ G) (d_far0 _ _ G)) as (a1 & a2 & a3 & a4 & a5).
  destruct (axis_hyps _ _ _ _ W Hr M1 (d_len1 _ _ G) (d_far1 _ _ G)) as (b1 & b2 & b3 & b4 & b5).
  destruct (axis_basic _ _ _ _ _ Hr a1 a2 a3 a4 a5) as (A1 & A2 & A3 & A4 & A5 & A6 & A7 & A8 & A9 & A10 & A11).
  destruct (axis_basic _ _ _ _ _ Hr b1 b2 b3 b4 b5) as (B1 & B2 & B3 & B4 & B5 & B6 & B7 & B8 & B9 & B10 & B11).
  pose proof (blur_eq W m) as EB. unfold lower, upper in *. cbn [fst snd] in *.
  assert (E0 : (fst (len m) / 2 == (1#2) * fst (len m))%Q) by field. assert (E1 : (snd (len m) / 2 == (1#2) * snd (len m))%Q) by field.
  rewrite E0, E1 in *. set (A := (inject_Z W * resn m)%Q) in *. set (n0 := (inject_Z (fst (size m)) * resn m)%Q) in *.
  set (n1 := (inject_Z (snd (size m)) * resn m)%Q) in *. clearbody A n0 n1.
  split; apply Qabs_Qle_condition; split; lra.
Qed.

Lemma two_ulp m : dgeo W m -> (0 <= d m)%Q.
Proof.
  intros G. destruct (d_size _ _ G) as [M0 _]. pose proof (d_far0 _ _ G) as F. pose proof (Qabs_nonneg (fst (pos m))) as AP.
  pose proof (d_res _ _ G) as Hr.
  apply Qmult_le_0_compat; [discriminate|]. eapply Qle_trans; [|exact F].
  assert (0 <= inject_Z (fst (size m)) * resn m)%Q; [|lra]. apply Qmult_le_0_compat; [|lra]. change 0%Q with (inject_Z 0). rewrite <- Zle_Qle. lia.
Qed.

Lemma rnd_close m x y : dgeo W m -> (Qabs y <= inject_Z W * resn m)%Q -> x = rnd y -> (Qabs (x - y) <= 2 * d m)%Q.
Proof.
  intros G H ->. pose proof (N y) as K. assert (ulp * Qabs y <= d m)%Q by (apply Qmult_le_l; [reflexivity|auto]).
  pose proof (two_ulp m G). lra.
Qed.

Lemma circle_double m c R : dgeo W m -> (2 * blur W m <= R)%Q ->
  inside_by (- (2 * blur W m)) m (fst c + R, snd c + R)%Q -> inside_by (- (2 * blur W m)) m (fst c - R, snd c - R)%Q ->
  exists vs, circle_visits m c R = Ok vs /\ NoDup vs /\
    (forall i, In i vs -> in_range (size m) i /\ in_circle c (R + 2 * blur W m) (centre m i)) /\
    (start m = (0, 0) -> forall i, in_range (size m) i -> in_circle c (R - 2 * blur W m) (centre m i) -> In i vs).
Proof.
  intros G HR It Ib. pose proof (blur_eq W m) as EB. pose proof (two_ulp m G) as D0.
  destruct (inside_bounds _ _ G It) as [T0 T1]. destruct (inside_bounds _ _ G Ib) as [U0 U1]. cbn [fst snd] in *.
  assert (RA : (R <= inject_Z W * resn m)%Q).
  { apply Qabs_Qle_condition in T0 as [? ?], U0 as [? ?]. lra. }
  unfold circle_visits, circle_window.
  set (f := fun i => match circle_inside m c R i with Ok b => b | _ => false end).
  assert (EB2 : (2 * blur W m == 32 * d m)%Q) by (rewrite EB; ring).
  assert (TEST : forall i, in_range (size m) i -> circle_inside m c R i = Ok (f i) /\
    (f i = true -> in_circle c (R + 2 * blur W m) (centre m i)) /\ (in_circle c (R - 2 * blur W m) (centre m i) -> f i = true)).
  { intros i Hi. destruct (position_close N W HW m i G Hi) as (p & Hp & C0 & C1). rewrite EB in C0, C1.
    unfold f, circle_inside, position_or_uninit. rewrite Hp. cbn [rbind]. split; auto.
    destruct (circle_test N c R p (centre m i) (inject_Z W * resn m) ltac:(lra) RA C0 C1) as [K1 K2].
    unfold in_circle in *. rewrite EB2. split; [exact K1|]. apply K2. lra. }
  destruct (box_naive N W HW m (fadd (fst c) R, fadd (snd c) R) (fsub (fst c) R, fsub (snd c) R) (fst c + R, snd c + R)%Q (fst c - R, snd c - R)%Q
     (circle_inside m c R) f G) as (vs & V & ND & V1 & V2); auto.
  - split; cbn [fst snd]; apply rnd_close; auto.
  - split; cbn [fst snd]; apply rnd_close; auto.
  - cbn [fst snd]. lra.
  - cbn [fst snd]. lra.
  - intros i Hi. now apply TEST.
  - exists vs. split; [exact V|]. split; auto. split.
    + intros i Hi. destruct (V1 i Hi) as [Ri Fi]. split; auto. now apply TEST.
    + intros S i Ri C. apply V2; auto; [|now apply TEST]. pose proof (d_res _ _ G) as Hr.
      assert (HR0 : (0 <= R - 2 * blur W m)%Q) by lra.
      destruct (in_circle_box _ _ _ HR0 C) as (X1 & X2 & X3 & X4). unfold in_box. cbn [fst snd].
      split; [lra|]. split; [lra|]. split; lra.
Qed.

(** *** Polygons *)

Lemma crosses_clear m a b p : dgeo W m -> inside_by (- (2 * blur W m)) m a -> inside_by (- (2 * blur W m)) m b ->
  (forall t, (0 <= t)%Q -> (t <= 1)%Q -> (snd p == snd (along a b t))%Q -> (blur W m < Qabs (fst p - fst (along a b t)))%Q) ->
  crosses (E := E) a b p = crosses (E := exact_wrap) a b p.
Proof.
  intros G Ia Ib CL. unfold crosses. 
  destruct (Bool.eqb (Qlt_bool (snd p) (snd a)) (Qlt_bool (snd p) (snd b))) eqn:S; [reflexivity|]. cbn [negb andb].
  apply Bool.eqb_false_iff in S.
  destruct (inside_bounds _ _ G Ia) as [A0 A1]. destruct (inside_bounds _ _ G Ib) as [B0 B1].
  pose proof (blur_eq W m) as EB. pose proof (two_ulp m G) as D0.
  set (A := (inject_Z W * resn m)%Q) in *.
  assert (DY : ~ (snd b - snd a == 0)%Q).
  { intros K. apply S. assert (snd b == snd a)%Q as EQ by lra.
    destruct (Qlt_bool (snd p) (snd a)) eqn:K1, (Qlt_bool (snd p) (snd b)) eqn:K2; auto;
      try apply Qlt_bool_iff in K1; try apply Qlt_bool_iff in K2; try apply Qlt_bool_false in K1; try apply Qlt_bool_false in K2; lra. }
  set (t := ((snd p - snd a) / (snd b - snd a))%Q).
  assert (T : (0 <= t /\ t <= 1)%Q).
  { unfold t. destruct (Qlt_bool (snd p) (snd a)) eqn:K1, (Qlt_bool (snd p) (snd b)) eqn:K2; try (exfalso; apply S; reflexivity);
      try apply Qlt_bool_iff in K1; try apply Qlt_bool_iff in K2; try apply Qlt_bool_false in K1; try apply Qlt_bool_false in K2.
    - assert (((snd p - snd a) / (snd b - snd a) == (snd a - snd p) / (snd a - snd b)))%Q as -> by (field; split; lra).
      split; [apply Qle_shift_div_l; lra|apply Qle_shift_div_r; lra].
    - split; [apply Qle_shift_div_l; lra|apply Qle_shift_div_r; lra]. }
  destruct T as [T0 T1]. 
  assert (C := CL t T0 T1). unfold along in C. cbn [fst snd] in C.
  assert (HT : (snd p == snd a + t * (snd b - snd a))%Q) by (unfold t; field; auto). specialize (C HT).
  set (X := (fst a + t * (fst b - fst a))%Q) in *.
  (* the rounded intercept *)
  assert (ER : (Qabs (fadd (fdiv (fmul (fsub (fst b) (fst a)) (fsub (snd p) (snd a))) (fsub (snd b) (snd a))) (fst a) - X) <= 15 * (ulp * A))%Q).
  { destruct (fsub_rel N (fst b) (fst a)) as (f1 & e1 & F1). destruct (fsub_rel N (snd p) (snd a)) as (f2 & e2 & F2).
    destruct (fsub_rel N (snd b) (snd a)) as (f3 & e3 & F3).
    set (x1 := fsub (fst b) (fst a)) in *. set (x2 := fsub (snd p) (snd a)) in *. set (x3 := fsub (snd b) (snd a)) in *. clearbody x1 x2 x3.
    destruct (fmul_rel N x1 x2) as (f4 & e4 & F4). set (x4 := fmul x1 x2) in *. clearbody x4.
    destruct (fdiv_rel N x4 x3) as (f5 & e5 & F5). set (x5 := fdiv x4 x3) in *. clearbody x5.
    destruct (factor_inv 1 f3 ltac:(lra) F3) as [F3' P3].
    assert (F : factor 6 (f1 * f2 * f4 * / f3 * f5)).
    { eapply factor_le; [|apply factor_mul; [| |apply factor_mul; [| |apply factor_mul; [| |apply factor_mul; [| |exact F1|exact F2]|exact F4]|exact F3']|exact F5]]; lra. }
    assert (Q5 : (x5 == t * (fst b - fst a) * (f1 * f2 * f4 * / f3 * f5))%Q).
    { rewrite e5, e4, e1, e2, e3. unfold t. field. split; auto. lra. }
    set (g := (f1 * f2 * f4 * / f3 * f5)%Q) in *. clearbody g.
    assert (TB : (Qabs (t * (fst b - fst a)) <= 2 * A)%Q).
    { rewrite Qabs_Qmult, (Qabs_pos t) by auto. apply Qle_trans with (1 * Qabs (fst b - fst a))%Q.
      - apply Qmult_le_compat_r; [auto|apply Qabs_nonneg].
      - rewrite Qmult_1_l. eapply Qle_trans; [apply Qabs_triangle|]. rewrite Qabs_opp. lra. }
    assert (X5 : (Qabs (x5 - t * (fst b - fst a)) <= 12 * (ulp * A))%Q).
    { rewrite Q5. setoid_replace (t * (fst b - fst a) * g - t * (fst b - fst a))%Q with (t * (fst b - fst a) * (g - 1))%Q by ring.
      rewrite Qabs_Qmult. assert (GB : (Qabs (g - 1) <= 6 * ulp)%Q) by (destruct F; apply Qabs_Qle_condition; split; lra).
      apply Qle_trans with (2 * A * Qabs (g - 1))%Q; [apply Qmult_le_compat_r; [auto|apply Qabs_nonneg]|].
      setoid_replace (12 * (ulp * A))%Q with ((6 * ulp) * (2 * A))%Q by ring. rewrite (Qmult_comm (2 * A)). apply Qmult_le_compat_r; auto.
      pose proof (Qabs_nonneg (fst a)). lra. }
    (* the sum is near a convex combination, of size at most A *)
    assert (XA : (Qabs X <= A)%Q).
    { unfold X. setoid_replace (fst a + t * (fst b - fst a))%Q with ((1 - t) * fst a + t * fst b)%Q by ring.
      eapply Qle_trans; [apply Qabs_triangle|]. rewrite !Qabs_Qmult, (Qabs_pos t), (Qabs_pos (1 - t)) by lra.
      assert ((1 - t) * Qabs (fst a) <= (1 - t) * A)%Q by (rewrite !(Qmult_comm (1 - t)); apply Qmult_le_compat_r; lra).
      assert (t * Qabs (fst b) <= t * A)%Q by (rewrite !(Qmult_comm t); apply Qmult_le_compat_r; lra). lra. }
    unfold fadd. pose proof (N (x5 + fst a)%Q) as K.
    assert (SX : (Qabs (x5 + fst a) <= 2 * A)%Q).
    { apply Qabs_Qle_condition in X5 as [? ?], XA as [? ?]. unfold X in *. unfold ulp in *. apply Qabs_Qle_condition. split; lra. }
    assert (US : (ulp * Qabs (x5 + fst a) <= 2 * (ulp * A))%Q).
    { setoid_replace (2 * (ulp * A))%Q with (ulp * (2 * A))%Q by ring. apply Qmult_le_l; [reflexivity|auto]. }
    apply Qabs_Qle_condition in K as [K1 K2], X5 as [Y1 Y2]. unfold X. apply Qabs_Qle_condition.
    set (z := rnd (x5 + fst a)) in *. clearbody z. split; lra. }
  set (V := fadd _ (fst a)) in *.
  set (V' := fadd (E := exact_wrap) _ (fst a)).
  assert (EV : (V' == X)%Q).
  { unfold V', X, t. exqX exact_wrap_Exact. field. auto. }
  clearbody V V'. apply Qabs_Qle_condition in ER as [R1 R2].
  assert (C' : (fst p - X < - blur W m \/ blur W m < fst p - X)%Q).
  { destruct (Qlt_le_dec (fst p - X) 0) as [K|K]; [rewrite Qabs_neg in C by lra; left; lra|rewrite Qabs_pos in C by lra; right; lra]. }
  rewrite EB in C'. fold A in C'. set (dd := (ulp * A)%Q) in *. clearbody dd.
  destruct (Qlt_bool (fst p) V) eqn:K1, (Qlt_bool (fst p) V') eqn:K2; auto;
    try apply Qlt_bool_iff in K1; try apply Qlt_bool_iff in K2; try apply Qlt_bool_false in K1; try apply Qlt_bool_false in K2; lra.
Qed.

Lemma count_clear m p : dgeo W m -> forall vs vj, (forall v, In v (vj :: vs) -> inside_by (- (2 * blur W m)) m v) ->
  (forall a b, In (a, b) (combine (vj :: removelast vs) vs) -> crosses (E := E) b a p = crosses (E := exact_wrap) b a p) ->
  count_crossings (E := E) vj vs p = count_crossings (E := exact_wrap) vj vs p.
Proof.
  intros G. induction vs as [|b t IH]; intros vj HI HC; [reflexivity|]. cbn [count_crossings].
  rewrite (HC vj b); [|destruct t; now left]. f_equal. apply IH.
  - intros v Hv. apply HI. now right.
  - intros x y Hx. apply HC. destruct t as [|c t]; [destruct Hx|]. cbn [removelast combine]. right. exact Hx.
Qed.

Lemma contains_clear m vs p : dgeo W m -> (forall v, In v vs -> inside_by (- (2 * blur W m)) m v) -> clear_of (blur W m) vs p ->
  polygon_contains (E := E) vs p = polygon_contains (E := exact_wrap) vs p.
Proof.
  intros G HI HC. unfold polygon_contains. destruct vs as [|v t]; [reflexivity|]. f_equal.
  assert (NR : forall (E' : Env), count_crossings (E := E') (last (v :: t) v) (v :: t) p = count_crossings (E := E') v (t ++ [v]) p).
  { intros E'. rewrite count_snoc. cbn [count_crossings].
    assert (last (v :: t) v = last t v) as -> by (destruct t; reflexivity). lia. }
  rewrite !NR. apply (count_clear m p G).
  - intros w Hw. apply HI. destruct Hw as [<-|Hw]; [now left|]. apply in_app_iff in Hw as [Hw|[<-|[]]]; [now right|now left].
  - intros a b Hab. rewrite removelast_last in Hab.
    assert (Ia : inside_by (- (2 * blur W m)) m a) by (apply HI; now apply in_combine_l in Hab).
    assert (Ib : inside_by (- (2 * blur W m)) m b).
    { apply HI. apply in_combine_r in Hab. apply in_app_iff in Hab as [Hab|[<-|[]]]; [now right|now left]. }
    apply (crosses_clear m b a p G Ib Ia). intros u U0 U1 HU.
    assert (EA : (snd (along b a u) == snd (along a b (1 - u)))%Q) by (unfold along; cbn; ring).
    assert (EA' : (fst (along b a u) == fst (along a b (1 - u)))%Q) by (unfold along; cbn; ring).
    rewrite EA'. apply HC; try lra. exact Hab.
Qed.

Lemma polygon_double m vs : dgeo W m -> vs <> [] -> (forall v, In v vs -> inside_by (- (2 * blur W m)) m v) ->
  exists is, polygon_visits m vs = Ok is /\ NoDup is /\ (forall i, In i is -> in_range (size m) i) /\
    (forall i p, in_range (size m) i -> getPosition m i = Some p -> clear_of (blur W m) vs p -> (In i is <-> in_polygon vs p)).
Proof.
  intros G NE HI. destruct vs as [|v t] eqn:EV; [congruence|]. rewrite <- EV in *.
  unfold polygon_visits, polygon_window. rewrite EV. cbn [rbind]. rewrite <- EV.
  destruct (fold_vmax vs v) as (MX & (x1 & I1 & E1) & (x2 & I2 & E2)). destruct (fold_vmin vs v) as (MN & (y1 & I3 & E3) & (y2 & I4 & E4)).
  assert (SUB : forall w, In w (v :: vs) -> In w vs). { intros w [<-|H]; auto. rewrite EV. now left. }
  set (pt := fold_left vmax vs v) in *. set (pb := fold_left vmin vs v) in *.
  assert (It : inside_by (- (2 * blur W m)) m pt).
  { destruct (HI x1 (SUB _ I1)) as (a & b & _). destruct (HI x2 (SUB _ I2)) as (_ & _ & c & e). unfold inside_by. rewrite E1, E2. auto. }
  assert (Ib : inside_by (- (2 * blur W m)) m pb).
  { destruct (HI y1 (SUB _ I3)) as (a & b & _). destruct (HI y2 (SUB _ I4)) as (_ & _ & c & e). unfold inside_by. rewrite E3, E4. auto. }
  pose proof (two_ulp m G) as D0.
  assert (CS : forall p, close (2 * d m) p p).
  { intros p. split; (setoid_replace (fst p - fst p)%Q with 0%Q by ring) || (setoid_replace (snd p - snd p)%Q with 0%Q by ring); change (Qabs 0) with 0%Q; lra. }
  set (f := fun i => match polygon_inside m vs i with Ok b => b | _ => false end).
  assert (TEST : forall i, in_range (size m) i -> polygon_inside m vs i = Ok (f i) /\
     forall p, getPosition m i = Some p -> f i = polygon_contains vs p).
  { intros i Hi. destruct (position_close N W HW m i G Hi) as (p & Hp & _). unfold f, polygon_inside, position_or_uninit.
    rewrite Hp. cbn [rbind]. split; auto. intros p' Hp'. injection Hp' as <-. reflexivity. }
  destruct (box_double N W HW m pt pb pt pb (polygon_inside m vs) f G (CS _) (CS _) It Ib) as (is & V & ND & V1 & V2).
  { intros i Hi. now apply TEST. }
  exists is. split; [exact V|]. split; auto. split; [intros i Hi; now apply V1|].
  intros i p Ri Hp CL. destruct (TEST i Ri) as [_ T]. specialize (T p Hp).
  assert (X : Exact exact_wrap) by exact exact_wrap_Exact.
  assert (FP : f i = true <-> in_polygon vs p).
  { rewrite T, (contains_clear m vs p G HI CL). apply (polygon_contains_iff X). }
  split.
  - intros Hi. apply FP. now apply V1.
  - intros HP. apply V2; auto; [|now apply FP].
    destruct (polygon_box X vs v p) as (B1 & B2 & B3 & B4); auto. { rewrite EV; reflexivity. }
    destruct (position_close N W HW m i G Ri) as (p' & Hp' & C0 & C1). rewrite Hp in Hp'. injection Hp' as <-.
    pose proof (blur_small W HW m G) as BS. apply Qabs_Qle_condition in C0 as [? ?], C1 as [? ?].
    fold pt pb in B1, B2, B3, B4. unfold in_box. split; [lra|]. split; [lra|]. split; lra.
Qed.
End Shapes.
