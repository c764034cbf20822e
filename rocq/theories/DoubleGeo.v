(** Geometry under rounding errors: bounds that hold for IEEE doubles. *)
From Coq Require Import ZArith QArith Qround Qabs String List Bool Lia Lqa Psatz.
From Verif Require Import Base Mat GridMapMath CostMap Spec BaseLemmas GeoLemmas DoubleSpec.
Import ListNotations.
Open Scope Z_scope.

(** Every rounding has a small relative error. *)
Definition Near (E : Env) : Prop := forall x : Q, (Qabs (rnd x - x) <= ulp * Qabs x)%Q.

Section NearLemmas.
Context {E : Env} (N : Near E).

Lemma nr x B : (- B <= x)%Q -> (x <= B)%Q -> (x - ulp * B <= rnd x /\ rnd x <= x + ulp * B)%Q.
Proof.
  intros H1 H2. pose proof (N x) as K. assert (Qabs x <= B)%Q as AB by (apply Qabs_Qle_condition; auto).
  apply Qabs_Qle_condition in K as [K1 K2].
  assert (ulp * Qabs x <= ulp * B)%Q by (apply Qmult_le_l; [reflexivity|auto]). split; lra.
Qed.

(** A rounded value that is bounded has a bounded argument. *)
Lemma nr_inv x B : (- B <= rnd x)%Q -> (rnd x <= B)%Q -> (- ((513#512) * B) <= x /\ x <= (513#512) * B)%Q.
Proof.
  intros H1 H2. pose proof (N x) as K. apply Qabs_Qle_condition in K as [K1 K2].
  unfold ulp in *. destruct (Qlt_le_dec x 0) as [C|C].
  - rewrite (Qabs_neg x) in K1, K2 by lra. split; lra.
  - rewrite (Qabs_pos x) in K1, K2 by lra. split; lra.
Qed.

Lemma div_bounds x r B : (0 < r)%Q -> (- (B * r) <= x)%Q -> (x <= B * r)%Q -> (- B <= x / r /\ x / r <= B)%Q.
Proof.
  intros Hr H1 H2. split.
  - apply Qle_shift_div_l; auto. lra.
  - apply Qle_shift_div_r; auto.
Qed.

(** One axis of a map. [A] bounds the coordinates, [ulp * A] is the unit of the
    error bounds below. *)
Section Axis.
Context (n : Z) (L c r A : Q).
Context (Hr : (0 < r)%Q) (Hn : 1 <= n)
  (HL1 : (inject_Z n * r - ulp * (inject_Z n * r) <= L)%Q) (HL2 : (L <= inject_Z n * r + ulp * (inject_Z n * r))%Q)
  (HA1 : (inject_Z n * r - c <= A)%Q) (HA2 : (inject_Z n * r + c <= A)%Q)
  (HS : (512 * (ulp * A) <= r)%Q).

Lemma axis_basic : (r <= inject_Z n * r /\ inject_Z n * r <= A /\ 0 <= ulp * A /\ ulp * A <= A * (1#512) /\
   r <= A /\ L <= A + ulp * A /\ r - ulp * A <= L /\ inject_Z n * r - ulp * A <= L /\ L <= inject_Z n * r + ulp * A /\ -A <= c /\ c <= A)%Q.
Proof.
  assert (N1 : (1 <= inject_Z n)%Q) by (change 1%Q with (inject_Z 1); rewrite <- Zle_Qle; lia).
  assert (R1 : (r <= inject_Z n * r)%Q). { setoid_replace r with (1 * r)%Q at 1 by ring. apply Qmult_le_compat_r; lra. }
  set (nr' := (inject_Z n * r)%Q) in *. clearbody nr'.
  unfold ulp in *. repeat split; lra.
Qed.

Lemma nrA x b : (- (b * A) <= x)%Q -> (x <= b * A)%Q ->
  (x - b * (ulp * A) <= rnd x /\ rnd x <= x + b * (ulp * A))%Q.
Proof.
  intros H1 H2. destruct (nr x (b * A) H1 H2) as [K1 K2].
  assert (ulp * (b * A) == b * (ulp * A))%Q as Q0 by ring. rewrite Q0 in K1, K2. auto.
Qed.

Lemma position_err k : 0 <= k < n -> 
  (- (5 * (ulp * A)) <= position1 k L c r - centre1 L c r k /\ position1 k L c r - centre1 L c r k <= 5 * (ulp * A))%Q.
Proof.
  intros Hk. destruct axis_basic as (B1 & B2 & B3 & B4 & B5 & B6 & B7 & B8 & B9 & B10 & B11).
  unfold position1, centre1, fadd, fsub, fmul.
  assert (K1 : (0 <= inject_Z k * r)%Q) by (apply Qmult_le_0_compat; [change 0%Q with (inject_Z 0); rewrite <- Zle_Qle; lia|lra]).
  assert (K2 : (inject_Z k * r <= inject_Z n * r - r)%Q).
  { setoid_replace (inject_Z n * r - r)%Q with (inject_Z (n - 1) * r)%Q by (unfold Z.sub; rewrite inject_Z_plus; simpl; ring).
    apply Qmult_le_compat_r; [rewrite <- Zle_Qle; lia|lra]. }
  set (kr := (inject_Z k * r)%Q) in *. set (nn := (inject_Z n * r)%Q) in *. set (d := (ulp * A)%Q) in *.
  assert (EL : (L / 2 == (1#2) * L)%Q) by field.
  assert (EK : (r * inject_Z (- k) == - kr)%Q) by (unfold kr; rewrite inject_Z_opp; ring).
  assert (EC : ((inject_Z k + (1#2)) * r == kr + (1#2) * r)%Q) by (unfold kr; ring).
  rewrite EL, EC.
  destruct (nrA ((1#2) * L) (51#100) ltac:(lra) ltac:(lra)) as [a1 a2]. set (h1 := rnd ((1#2) * L)) in *. clearbody h1.
  destruct (nrA ((1#2) * r) (1#2) ltac:(lra) ltac:(lra)) as [b1 b2]. set (h2 := rnd ((1#2) * r)) in *. clearbody h2.
  fold d in a1, a2, b1, b2.
  destruct (nrA (h1 - h2) (51#100) ltac:(lra) ltac:(lra)) as [s1 s2]. set (s := rnd (h1 - h2)) in *. fold d in s1, s2. clearbody s.
  destruct (nrA (c + s) (101#100) ltac:(lra) ltac:(lra)) as [t1 t2]. set (t := rnd (c + s)) in *. fold d in t1, t2. clearbody t.
  destruct (nrA (r * inject_Z (- k)) 1 ltac:(rewrite EK; lra) ltac:(rewrite EK; lra)) as [v1 v2].
  set (v := rnd (r * inject_Z (- k))) in *. fold d in v1, v2. clearbody v. rewrite EK in v1, v2.
  destruct (nrA (t + v) (101#100) ltac:(lra) ltac:(lra)) as [p1 p2]. fold d in p1, p2.
  split; lra.
Qed.

Lemma within_value p : (- (2 * A) <= p - c)%Q -> (p - c <= 2 * A)%Q ->
  (- (6 * (ulp * A)) <= - fsub (fsub p c) (fmul (1#2) L) - (c + L / 2 - p) /\
   - fsub (fsub p c) (fmul (1#2) L) - (c + L / 2 - p) <= 6 * (ulp * A))%Q.
Proof.
  intros P1 P2. destruct axis_basic as (B1 & B2 & B3 & B4 & B5 & B6 & B7 & B8 & B9 & B10 & B11).
  unfold fsub, fmul. set (nn := (inject_Z n * r)%Q) in *. set (d := (ulp * A)%Q) in *.
  assert (EL : (L / 2 == (1#2) * L)%Q) by field. rewrite EL.
  destruct (nrA ((1#2) * L) (51#100) ltac:(lra) ltac:(lra)) as [a1 a2]. set (h := rnd ((1#2) * L)) in *. clearbody h. fold d in a1, a2.
  destruct (nrA (p - c) 2 ltac:(lra) ltac:(lra)) as [b1 b2]. set (y := rnd (p - c)) in *. clearbody y. fold d in b1, b2.
  destruct (nrA (y - h) (260#100) ltac:(lra) ltac:(lra)) as [c1 c2]. fold d in c1, c2. split; lra.
Qed.

Lemma within_bounded p : within1 p L c = true -> (- (2 * A) <= p - c /\ p - c <= 2 * A)%Q.
Proof.
  intros W. destruct axis_basic as (B1 & B2 & B3 & B4 & B5 & B6 & B7 & B8 & B9 & B10 & B11).
  unfold within1 in W. apply andb_true_iff in W as [W1 W2]. apply Qle_bool_iff in W1. apply Qlt_bool_iff in W2.
  unfold fsub, fmul in *.
  destruct (nrA ((1#2) * L) (51#100) ltac:(lra) ltac:(lra)) as [a1 a2]. set (h := rnd ((1#2) * L)) in *. clearbody h.
  pose proof (nr_inv (rnd (p - c) - h) L) as Y. set (t := rnd (rnd (p - c) - h)) in *. clearbody t.
  destruct Y as [y1 y2]; [lra|lra|]. clear W1 W2.
  pose proof (nr_inv (p - c) ((160#100) * A)) as X. set (y := rnd (p - c)) in *. clearbody y.
  set (nn := (inject_Z n * r)%Q) in *. set (d := (ulp * A)%Q) in *. clearbody d nn.
  destruct X as [x1 x2]; [lra|lra|]. split; lra.
Qed.

Lemma within_true p : within1 p L c = true ->
  (c - L / 2 - 6 * (ulp * A) < p /\ p <= c + L / 2 + 6 * (ulp * A))%Q.
Proof.
  intros W. destruct (within_bounded p W) as [P1 P2]. destruct (within_value p P1 P2) as [V1 V2].
  unfold within1 in W. apply andb_true_iff in W as [W1 W2]. apply Qle_bool_iff in W1. apply Qlt_bool_iff in W2.
  assert (EL : (L / 2 == (1#2) * L)%Q) by field. rewrite EL in *.
  set (t := fsub (fsub p c) (fmul (1#2) L)) in *. set (d := (ulp * A)%Q) in *. clearbody t d. split; lra.
Qed.

Lemma within_intro p : (c - L / 2 + 6 * (ulp * A) < p)%Q -> (p <= c + L / 2 - 6 * (ulp * A))%Q -> within1 p L c = true.
Proof.
  intros P1 P2. destruct axis_basic as (B1 & B2 & B3 & B4 & B5 & B6 & B7 & B8 & B9 & B10 & B11).
  assert (EL : (L / 2 == (1#2) * L)%Q) by field.
  destruct (within_value p ltac:(rewrite EL in *; lra) ltac:(rewrite EL in *; lra)) as [V1 V2]. rewrite EL in *.
  unfold within1. apply andb_true_iff. rewrite Qle_bool_iff, Qlt_bool_iff.
  set (t := fsub (fsub p c) (fmul (1#2) L)) in *. set (d := (ulp * A)%Q) in *. clearbody t d. split; lra.
Qed.

Lemma raw_value p : (- A <= p - c)%Q -> (p - c <= A)%Q ->
  (- (7 * (ulp * A)) <= - fdiv (fsub (fsub p (fmul (1#2) L)) c) r * r - (c + L / 2 - p) /\
   - fdiv (fsub (fsub p (fmul (1#2) L)) c) r * r - (c + L / 2 - p) <= 7 * (ulp * A))%Q.
Proof.
  intros P1 P2. destruct axis_basic as (B1 & B2 & B3 & B4 & B5 & B6 & B7 & B8 & B9 & B10 & B11).
  unfold fsub, fmul, fdiv. set (nn := (inject_Z n * r)%Q) in *. 
  assert (EL : (L / 2 == (1#2) * L)%Q) by field. rewrite EL.
  destruct (nrA ((1#2) * L) (51#100) ltac:(lra) ltac:(lra)) as [a1 a2]. set (h := rnd ((1#2) * L)) in *. clearbody h.
  destruct (nrA (p - h) (260#100) ltac:(lra) ltac:(lra)) as [b1 b2]. set (y := rnd (p - h)) in *. clearbody y.
  destruct (nrA (y - c) (160#100) ltac:(lra) ltac:(lra)) as [c1 c2]. set (z := rnd (y - c)) in *. clearbody z.
  assert (AR : (A / r * r == A)%Q) by (field; lra).
  destruct (div_bounds z r ((17#10) * (A / r)) Hr) as [d1 d2].
  { setoid_replace ((17#10) * (A / r) * r)%Q with ((17#10) * A)%Q by (rewrite <- AR at 2; ring). lra. }
  { setoid_replace ((17#10) * (A / r) * r)%Q with ((17#10) * A)%Q by (rewrite <- AR at 2; ring). lra. }
  destruct (nr (z / r) _ d1 d2) as [e1 e2].
  assert (ZR : (z / r * r == z)%Q) by (field; lra).
  apply Qmult_le_compat_r with (z := r) in e1; [|lra]. apply Qmult_le_compat_r with (z := r) in e2; [|lra].
  assert (X1 : ((z / r - ulp * ((17 # 10) * (A / r))) * r == z - (17#10) * (ulp * A))%Q).
  { rewrite <- ZR at 2. rewrite <- AR at 2. ring. }
  assert (X2 : ((z / r + ulp * ((17 # 10) * (A / r))) * r == z + (17#10) * (ulp * A))%Q).
  { rewrite <- ZR at 2. rewrite <- AR at 2. ring. }
  rewrite X1 in e1. rewrite X2 in e2. clear X1 X2 d1 d2.
  set (q := rnd (z / r)) in *. clearbody q.
  assert (QN : (- q * r == - (q * r))%Q) by ring. rewrite QN. set (w := (q * r)%Q) in *. clearbody w.
  set (d := (ulp * A)%Q) in *. clearbody d. split; lra.
Qed.

Lemma trunc_cell q : (- (1#2) < q)%Q -> let k := Qtrunc q in
  0 <= k /\ ((inject_Z k <= q /\ q < inject_Z k + 1)%Q \/ (k = 0 /\ (q < 0)%Q)).
Proof.
  intros Hq k. destruct (Qlt_le_dec q 0) as [C|C].
  - assert (K0 : k = 0).
    { unfold k. setoid_replace q with (- - q)%Q by ring. rewrite Qtrunc_opp, Qtrunc_nonneg by lra.
      pose proof (Qfloor_le (- q)) as F1. pose proof (Qlt_floor (- q)) as F2.
      assert (Qfloor (- q) = 0); [|lia].
      assert (Qfloor (- q) < 1) by (rewrite Zlt_Qlt; change (inject_Z 1) with 1%Q; lra).
      assert (-1 < Qfloor (- q)) by (rewrite inject_Z_plus in F2; rewrite Zlt_Qlt; change (inject_Z (-1)) with (-1)%Q; change (inject_Z 1) with 1%Q in F2; lra). lia. }
    split; [lia|]. right. auto.
  - unfold k. rewrite Qtrunc_nonneg by auto.
    pose proof (Qfloor_le q) as F1. pose proof (Qlt_floor q) as F2. rewrite inject_Z_plus in F2. change (inject_Z 1) with 1%Q in F2.
    split; [|left; auto].
    assert (-1 < Qfloor q); [|lia]. rewrite Zlt_Qlt. change (inject_Z (-1)) with (-1)%Q. lra.
Qed.

(** The cell computed for a position of the map. *)
Lemma raw_cell p : within1 p L c = true -> let k := raw_index1 p L c r in
  0 <= k <= n /\
  (inject_Z k * r - 7 * (ulp * A) <= c + L / 2 - p)%Q /\ (c + L / 2 - p <= (inject_Z k + 1) * r + 7 * (ulp * A))%Q /\
  ((c - L / 2 + 8 * (ulp * A) < p)%Q -> k < n).
Proof.
  intros W k. destruct (within_true p W) as [T1 T2].
  destruct axis_basic as (B1 & B2 & B3 & B4 & B5 & B6 & B7 & B8 & B9 & B10 & B11).
  assert (EL : (L / 2 == (1#2) * L)%Q) by field. rewrite EL in *.
  destruct (raw_value p ltac:(lra) ltac:(lra)) as [V1 V2]. rewrite EL in V1, V2.
  unfold raw_index1 in k. set (q := (- fdiv (fsub (fsub p (fmul (1 # 2) L)) c) r)%Q) in *.
  assert (Q0 : (- (1#2) < q)%Q).
  { apply Qmult_lt_r with (z := r); auto. set (w := (q * r)%Q) in *. clearbody w. lra. }
  destruct (trunc_cell q Q0) as [K0 K]. fold k in K0, K.
  assert (KR : ((inject_Z k * r <= q * r)%Q \/ (k = 0 /\ (q * r < 0)%Q)) /\ (q * r <= (inject_Z k + 1) * r)%Q).
  { destruct K as [[F1 F2]|[-> F]].
    - split; [left|]; apply Qmult_le_compat_r; lra.
    - split; [right; split; auto|].
      + setoid_replace 0%Q with (0 * r)%Q at 1 by ring. apply Qmult_lt_r; auto.
      + apply Qmult_le_compat_r; [|lra]. change (inject_Z 0) with 0%Q. lra. }
  destruct KR as [KL KU]. assert (QB : (inject_Z k * r <= c + (1#2) * L - p + 7 * (ulp * A))%Q).
  { destruct KL as [KL|[-> KL]].
    - set (w := (q * r)%Q) in *. set (v := (inject_Z k * r)%Q) in *. clearbody w v. lra.
    - change (inject_Z 0) with 0%Q. rewrite Qmult_0_l. lra. }
  assert (UP : forall z, (inject_Z k * r < inject_Z z * r)%Q -> k < z).
  { intros z Hz. apply Qmult_lt_r in Hz; auto. now rewrite <- Zlt_Qlt in Hz. }
  split; [split; auto|split; [|split]].
  - assert (k < n + 1); [|lia]. apply UP. rewrite inject_Z_plus. change (inject_Z 1) with 1%Q.
    rewrite Qmult_plus_distr_l, Qmult_1_l. set (nn := (inject_Z n * r)%Q) in *. clearbody nn. lra.
  - lra.
  - set (w := (q * r)%Q) in *. clearbody w. lra.
  - intros P. destruct KL as [KL|[K1 _]]; [|lia]. apply UP.
    set (nn := (inject_Z n * r)%Q) in *. clearbody nn. lra.
Qed.

(** Index to position to index. *)
Lemma roundtrip_axis k : 0 <= k < n ->
  within1 (position1 k L c r) L c = true /\ raw_index1 (position1 k L c r) L c r = k.
Proof.
  intros Hk. destruct (position_err k Hk) as [P1 P2]. unfold centre1 in *.
  destruct axis_basic as (B1 & B2 & B3 & B4 & B5 & B6 & B7 & B8 & B9 & B10 & B11).
  assert (EL : (L / 2 == (1#2) * L)%Q) by field.
  assert (K1 : (0 <= inject_Z k * r)%Q) by (apply Qmult_le_0_compat; [change 0%Q with (inject_Z 0); rewrite <- Zle_Qle; lia|lra]).
  assert (K2 : (inject_Z k * r <= inject_Z n * r - r)%Q).
  { setoid_replace (inject_Z n * r - r)%Q with (inject_Z (n - 1) * r)%Q by (unfold Z.sub; rewrite inject_Z_plus; simpl; ring).
    apply Qmult_le_compat_r; [rewrite <- Zle_Qle; lia|lra]. }
  rewrite EL in P1, P2. set (p := position1 k L c r) in *. clearbody p.
  assert (EK : ((inject_Z k + (1#2)) * r == inject_Z k * r + (1#2) * r)%Q) by ring. rewrite EK in P1, P2. 
  assert (W : within1 p L c = true).
  { apply within_intro; rewrite EL; set (nn := (inject_Z n * r)%Q) in *; set (kr := (inject_Z k * r)%Q) in *; clearbody nn kr; lra. }
  split; auto. destruct (within_true p W) as [T1 T2]. rewrite EL in T1, T2.
  destruct (raw_value p) as [V1 V2].
  { set (nn := (inject_Z n * r)%Q) in *; set (kr := (inject_Z k * r)%Q) in *; clearbody nn kr; lra. }
  { set (nn := (inject_Z n * r)%Q) in *; set (kr := (inject_Z k * r)%Q) in *; clearbody nn kr; lra. }
  rewrite EL in V1, V2. unfold raw_index1.
  set (q := (- fdiv (fsub (fsub p (fmul (1 # 2) L)) c) r)%Q) in *.
  assert (Q1 : (inject_Z k < q)%Q). { apply Qmult_lt_r with (z := r); auto. lra. }
  assert (Q2 : (q < inject_Z k + 1)%Q).
  { apply Qmult_lt_r with (z := r); auto. setoid_replace ((inject_Z k + 1) * r)%Q with (inject_Z k * r + r)%Q by ring. lra. }
  assert (Q3 : (0 <= inject_Z k)%Q) by (change 0%Q with (inject_Z 0); rewrite <- Zle_Qle; lia).
  rewrite Qtrunc_nonneg by lra.
  pose proof (Qfloor_le q) as F1. pose proof (Qlt_floor q) as F2.
  assert (k < Qfloor q + 1) by (rewrite Zlt_Qlt; lra).
  assert (Qfloor q < k + 1) by (rewrite Zlt_Qlt, inject_Z_plus; change (inject_Z 1) with 1%Q; lra). lia.
Qed.

(** A position close to the centre of the (possibly missing) cell w. *)
Lemma near_cell p w : (- ((1#4) * r) <= p - centre1 L c r w)%Q -> (p - centre1 L c r w <= (1#4) * r)%Q ->
  (within1 p L c = true <-> 0 <= w < n) /\ (0 <= w < n -> raw_index1 p L c r = w).
Proof.
  intros P1 P2. unfold centre1 in *.
  destruct axis_basic as (B1 & B2 & B3 & B4 & B5 & B6 & B7 & B8 & B9 & B10 & B11).
  assert (EL : (L / 2 == (1#2) * L)%Q) by field.
  rewrite EL in P1, P2. 
  assert (EK : ((inject_Z w + (1#2)) * r == inject_Z w * r + (1#2) * r)%Q) by ring. rewrite EK in P1, P2. 
  assert (WR : 0 <= w < n -> (0 <= inject_Z w * r /\ inject_Z w * r <= inject_Z n * r - r)%Q).
  { intros Hk. split.
    - apply Qmult_le_0_compat; [change 0%Q with (inject_Z 0); rewrite <- Zle_Qle; lia|lra].
    - setoid_replace (inject_Z n * r - r)%Q with (inject_Z (n - 1) * r)%Q by (unfold Z.sub; rewrite inject_Z_plus; simpl; ring).
      apply Qmult_le_compat_r; [rewrite <- Zle_Qle; lia|lra]. }
  assert (WI : 0 <= w < n -> within1 p L c = true).
  { intros Hk. destruct (WR Hk) as [K1 K2].
    apply within_intro; rewrite EL; set (nn := (inject_Z n * r)%Q) in *; set (kr := (inject_Z w * r)%Q) in *; clearbody nn kr; lra. }
  split; [split; auto|].
  - intros W. destruct (within_true p W) as [T1 T2]. rewrite EL in T1, T2.
    assert (M1 : (inject_Z (-1) * r < inject_Z w * r)%Q).
    { change (inject_Z (-1)) with (-1)%Q. setoid_replace (-1 * r)%Q with (- r)%Q by ring.
      set (kr := (inject_Z w * r)%Q) in *. clearbody kr. lra. }
    assert (M2 : (inject_Z w * r < inject_Z n * r)%Q).
    { set (nn := (inject_Z n * r)%Q) in *. set (kr := (inject_Z w * r)%Q) in *. clearbody nn kr. lra. }
    apply Qmult_lt_r in M1; auto. apply Qmult_lt_r in M2; auto. rewrite <- Zlt_Qlt in *. lia.
  - intros Hk. destruct (WR Hk) as [K1 K2]. pose proof (WI Hk) as W.
    destruct (raw_value p) as [V1 V2].
    { set (nn := (inject_Z n * r)%Q) in *; set (kr := (inject_Z w * r)%Q) in *; clearbody nn kr; lra. }
    { set (nn := (inject_Z n * r)%Q) in *; set (kr := (inject_Z w * r)%Q) in *; clearbody nn kr; lra. }
    rewrite EL in V1, V2. unfold raw_index1.
    set (q := (- fdiv (fsub (fsub p (fmul (1 # 2) L)) c) r)%Q) in *.
    assert (Q1 : (inject_Z w < q)%Q). { apply Qmult_lt_r with (z := r); auto. lra. }
    assert (Q2 : (q < inject_Z w + 1)%Q).
    { apply Qmult_lt_r with (z := r); auto. setoid_replace ((inject_Z w + 1) * r)%Q with (inject_Z w * r + r)%Q by ring. lra. }
    assert (Q3 : (0 <= inject_Z w)%Q) by (change 0%Q with (inject_Z 0); rewrite <- Zle_Qle; lia).
    rewrite Qtrunc_nonneg by lra.
    pose proof (Qfloor_le q) as F1. pose proof (Qlt_floor q) as F2.
    assert (w < Qfloor q + 1) by (rewrite Zlt_Qlt; lra).
    assert (Qfloor q < w + 1) by (rewrite Zlt_Qlt, inject_Z_plus; change (inject_Z 1) with 1%Q; lra). lia.
Qed.

(** The shift computed for a move to p. *)
Lemma shift_value p : (- A <= p)%Q -> (p <= A)%Q -> let k := index_shift1 (fsub p c) r in
  (- ((1#2) * r + 7 * (ulp * A)) <= p - c + inject_Z k * r /\ p - c + inject_Z k * r <= (1#2) * r + 7 * (ulp * A))%Q.
Proof.
  intros P1 P2 k. destruct axis_basic as (B1 & B2 & B3 & B4 & B5 & B6 & B7 & B8 & B9 & B10 & B11).
  unfold k, index_shift1, fsub, fadd, fdiv.
  destruct (nrA (p - c) 2 ltac:(lra) ltac:(lra)) as [a1 a2]. set (y := rnd (p - c)) in *. clearbody y.
  assert (AR : (A / r * r == A)%Q) by (field; lra).
  assert (A1 : (1 <= A / r)%Q). { apply Qle_shift_div_l; auto. lra. }
  assert (SC : forall b, (b * (A / r) * r == b * A)%Q) by (intros b; rewrite <- AR at 2; ring).
  destruct (div_bounds y r ((201#100) * (A / r)) Hr) as [d1 d2]; [rewrite SC; lra|rewrite SC; lra|].
  destruct (nr (y / r) _ d1 d2) as [e1 e2]. clear d1 d2. 
  assert (ZR : (y / r * r == y)%Q) by (field; lra).
  set (x := rnd (y / r)) in *. clearbody x.
  set (o := if Qlt_bool 0 x then 1#2 else Qopp (1#2)).
  assert (UB : (ulp * ((201 # 100) * (A / r)) <= (1#100) * (A / r))%Q) by (unfold ulp; lra).
  assert (YB : (- ((201#100) * (A / r)) <= y / r /\ y / r <= (201#100) * (A / r))%Q).
  { apply div_bounds; auto; rewrite SC; lra. }
  destruct (nr (x + o) ((26#10) * (A / r))) as [g1 g2].
  { unfold o. destruct (Qlt_bool 0 x); lra. }
  { unfold o. destruct (Qlt_bool 0 x); lra. }
  set (z := rnd (x + o)) in *. clearbody z.
  apply Qmult_le_compat_r with (z := r) in e1; [|lra]. apply Qmult_le_compat_r with (z := r) in e2; [|lra].
  apply Qmult_le_compat_r with (z := r) in g1; [|lra]. apply Qmult_le_compat_r with (z := r) in g2; [|lra].
  assert (X1 : ((y / r - ulp * ((201 # 100) * (A / r))) * r == y - (201#100) * (ulp * A))%Q).
  { rewrite <- ZR at 2. rewrite <- AR at 2. ring. }
  assert (X2 : ((y / r + ulp * ((201 # 100) * (A / r))) * r == y + (201#100) * (ulp * A))%Q).
  { rewrite <- ZR at 2. rewrite <- AR at 2. ring. }
  assert (X3 : ((x + o - ulp * ((26 # 10) * (A / r))) * r == x * r + o * r - (26#10) * (ulp * A))%Q).
  { rewrite <- AR at 2. ring. }
  assert (X4 : ((x + o + ulp * ((26 # 10) * (A / r))) * r == x * r + o * r + (26#10) * (ulp * A))%Q).
  { rewrite <- AR at 2. ring. }
  rewrite X1 in e1. rewrite X2 in e2. rewrite X3 in g1. rewrite X4 in g2. clear X1 X2 X3 X4 UB YB SC AR A1.
  (* the truncation *)
  set (j := Qtrunc (- z)) in *.
  assert (TR : (0 <= - z -> inject_Z j <= - z /\ - z < inject_Z j + 1)%Q /\ (- z <= 0 -> inject_Z j - 1 < - z /\ - z <= inject_Z j)%Q).
  { split; intros S.
    - unfold j. rewrite Qtrunc_nonneg by auto. pose proof (Qfloor_le (- z)). pose proof (Qlt_floor (- z)) as F.
      rewrite inject_Z_plus in F. change (inject_Z 1) with 1%Q in F. split; lra.
    - unfold j. rewrite Qtrunc_opp, Qtrunc_nonneg by lra. pose proof (Qfloor_le z). pose proof (Qlt_floor z) as F.
      rewrite inject_Z_plus in F. change (inject_Z 1) with 1%Q in F. rewrite inject_Z_opp. split; lra. }
  assert (JR : forall t, (t * r == t * r)%Q) by reflexivity. clear JR.
  assert (MU : forall a b, (a <= b -> a * r <= b * r)%Q) by (intros; apply Qmult_le_compat_r; lra).
  assert (R0 : (0 * r == 0)%Q) by ring.
  destruct (Qlt_bool 0 x) eqn:C; unfold o in *; clear o.
  - apply Qlt_bool_iff in C. assert (XR : (0 <= x * r)%Q) by (rewrite <- R0; apply MU; lra).
    assert (ZP : (0 <= z)%Q).
    { apply Qmult_le_r with (z := r); auto. rewrite R0. set (v := (z * r)%Q) in *. set (u := (x * r)%Q) in *. clearbody u v.
      set (d := (ulp * A)%Q) in *. clearbody d. lra. }
    destruct (proj2 TR ltac:(lra)) as [T1 T2]. 
    assert (U1 : (inject_Z j * r - r <= - (z * r))%Q).
    { setoid_replace (inject_Z j * r - r)%Q with ((inject_Z j - 1) * r)%Q by ring.
      setoid_replace (- (z * r))%Q with (- z * r)%Q by ring. apply MU. lra. }
    assert (U2 : (- (z * r) <= inject_Z j * r)%Q).
    { setoid_replace (- (z * r))%Q with (- z * r)%Q by ring. apply MU. lra. }
    assert (HO : ((1#2) * r == (1#2) * r)%Q) by reflexivity.
    set (v := (z * r)%Q) in *. set (u := (x * r)%Q) in *. set (w := (inject_Z j * r)%Q) in *. clearbody u v w.
    set (d := (ulp * A)%Q) in *. clearbody d. split; lra.
  - assert (~ (0 < x)%Q) as C' by (intros H; apply Qlt_bool_iff in H; congruence).
    assert (XR : (x * r <= 0)%Q) by (rewrite <- R0; apply MU; lra).
    assert (ZP : (z <= 0)%Q).
    { apply Qmult_le_r with (z := r); auto. rewrite R0. set (v := (z * r)%Q) in *. set (u := (x * r)%Q) in *. clearbody u v.
      set (d := (ulp * A)%Q) in *. clearbody d. lra. }
    destruct (proj1 TR ltac:(lra)) as [T1 T2]. 
    assert (U1 : (- (z * r) <= inject_Z j * r + r)%Q).
    { setoid_replace (inject_Z j * r + r)%Q with ((inject_Z j + 1) * r)%Q by ring.
      setoid_replace (- (z * r))%Q with (- z * r)%Q by ring. apply MU. lra. }
    assert (U2 : (inject_Z j * r <= - (z * r))%Q).
    { setoid_replace (- (z * r))%Q with (- z * r)%Q by ring. apply MU. lra. }
    set (v := (z * r)%Q) in *. set (u := (x * r)%Q) in *. set (w := (inject_Z j * r)%Q) in *. clearbody u v w.
    set (d := (ulp * A)%Q) in *. clearbody d. split; lra.
Qed.

(** The new centre. *)
Lemma shifted_centre p : (- A <= p)%Q -> (p <= A)%Q -> let k := index_shift1 (fsub p c) r in
  let c' := fadd c (position_shift1 k r) in
  (- (6 * (ulp * A)) <= c' - (c - inject_Z k * r) /\ c' - (c - inject_Z k * r) <= 6 * (ulp * A))%Q.
Proof.
  intros P1 P2 k c'. destruct (shift_value p P1 P2) as [S1 S2]. fold k in S1, S2.
  destruct axis_basic as (B1 & B2 & B3 & B4 & B5 & B6 & B7 & B8 & B9 & B10 & B11).
  unfold c', position_shift1, fadd, fmul.
  assert (EK : (inject_Z (- k) * r == - (inject_Z k * r))%Q) by (rewrite inject_Z_opp; ring).
  set (kr := (inject_Z k * r)%Q) in *.
  destruct (nrA (inject_Z (- k) * r) 3 ltac:(rewrite EK; lra) ltac:(rewrite EK; lra)) as [a1 a2].
  set (y := rnd (inject_Z (- k) * r)) in *. clearbody y. rewrite EK in a1, a2.
  destruct (nrA (c + y) 2 ltac:(lra) ltac:(lra)) as [b1 b2]. split; lra.
Qed.

End Axis.
End NearLemmas.
