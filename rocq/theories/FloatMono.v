(** Rounding to nearest is monotone and respects equality of fractions. *)
From Coq Require Import ZArith QArith Qround Qabs Qpower Qreduction List Bool Lia Lqa.
From Verif Require Import Base BaseLemmas FloatLemmas.
Open Scope Z_scope.

Lemma Zrne_scale n d n' d' : 0 < d -> 0 < d' -> n * d' = n' * d -> Zrne n d = Zrne n' d'.
Proof.
  intros Hd Hd' H. unfold Zrne.
  pose proof (Z.div_mod n d ltac:(lia)) as M. pose proof (Z.mod_pos_bound n d Hd) as B.
  pose proof (Z.div_mod n' d' ltac:(lia)) as M'. pose proof (Z.mod_pos_bound n' d' Hd') as B'.
  set (q := n / d) in *. set (r := n mod d) in *. set (q' := n' / d') in *. set (r' := n' mod d') in *. clearbody q r q' r'.
  assert (q = q').
  { assert (q * d * d' <= n * d' < (q + 1) * d * d') by nia. assert (q' * d' * d <= n' * d < (q' + 1) * d' * d) by nia.
    assert (0 < d * d') by nia. nia. }
  subst q'. assert (R : r * d' = r' * d) by nia.
  assert ((2 * r ?= d) = (2 * r' ?= d')) as ->; [|reflexivity].
  destruct (Z.compare_spec (2 * r) d), (Z.compare_spec (2 * r') d'); try reflexivity; nia.
Qed.

Lemma Qlog2_comp x y : (x == y)%Q -> ~ (x == 0)%Q -> Qlog2 x = Qlog2 y.
Proof.
  intros H NX. assert (NY : ~ (y == 0)%Q) by (intros K; apply NX; lra).
  destruct (Qlog2_bounds x NX) as [A B]. destruct (Qlog2_bounds y NY) as [C D].
  assert (HA : (Qabs x == Qabs y)%Q) by (now rewrite H).
  assert (forall a b, (pow2 a < pow2 b)%Q -> a < b) as G. { intros a b K. destruct (Z_lt_le_dec a b); auto. apply pow2_le in l. lra. }
  assert (Qlog2 x < Qlog2 y + 1) by (apply G; lra). assert (Qlog2 y < Qlog2 x + 1) by (apply G; lra). lia.
Qed.

Lemma rne_comp p x y : (x == y)%Q -> (rne p x == rne p y)%Q.
Proof.
  intros H. destruct (Qeq_dec x 0) as [Z|NZ].
  - rewrite (rne_zero p x Z), (rne_zero p y); [reflexivity|]. now rewrite <- H.
  - pose proof (Qlog2_comp x y H NZ) as L. unfold rne. rewrite <- L.
    assert (X : Qnum x <> 0). { intros K. apply NZ. destruct x as [n d]. cbn in K. subst. reflexivity. }
    assert (Y : Qnum y <> 0). { intros K. apply NZ. rewrite H. destruct y as [n d]. cbn in K. subst. reflexivity. }
    destruct (Z.eqb_spec (Qnum x) 0); [contradiction|]. destruct (Z.eqb_spec (Qnum y) 0); [contradiction|].
    unfold Qeq in H. set (e := Qlog2 x - (p - 1)). destruct (Z.leb_spec 0 e).
    + assert (0 < 2 ^ e) by (apply Z.pow_pos_nonneg; lia). rewrite (Zrne_scale _ (Zpos (Qden x) * 2 ^ e) (Qnum y) (Zpos (Qden y) * 2 ^ e)); [reflexivity|lia|lia|].
      rewrite !Z.mul_assoc. now rewrite H.
    + rewrite !Qred_correct. rewrite (Zrne_scale (Qnum x * 2 ^ (- e)) (Zpos (Qden x)) (Qnum y * 2 ^ (- e)) (Zpos (Qden y))); [reflexivity|lia|lia|].
      rewrite <- !Z.mul_assoc, !(Z.mul_comm (2 ^ (- e))), !Z.mul_assoc. now rewrite H.
Qed.

Lemma Qlog2_mono x y : (0 < x)%Q -> (x <= y)%Q -> Qlog2 x <= Qlog2 y.
Proof.
  intros P H. destruct (Qlog2_bounds x) as [A _]; [lra|]. destruct (Qlog2_bounds y) as [_ B]; [lra|].
  rewrite Qabs_pos in A, B by lra. destruct (Z_le_gt_dec (Qlog2 x) (Qlog2 y)); auto.
  assert (pow2 (Qlog2 y + 1) <= pow2 (Qlog2 x))%Q by (apply pow2_le; lia). lra.
Qed.

Lemma Qlog2_opp x : Qlog2 (- x) = Qlog2 x.
Proof. unfold Qlog2. cbn [Qnum Qden Qopp]. now rewrite Z.abs_opp. Qed.

(** Powers of two bound roundings. *)
Lemma rne_binade p q : 1 <= p -> (0 < q)%Q -> (pow2 (Qlog2 q) <= rne p q /\ rne p q <= pow2 (Qlog2 q + 1))%Q.
Proof.
  intros Hp QP. assert (NZ : ~ (q == 0)%Q) by lra. destruct (rne_spec p q NZ) as (z & R & _ & LO & UP).
  destruct (Qlog2_bounds q NZ) as [A B]. rewrite Qabs_pos in A, B by lra.
  set (e := Qlog2 q - (p - 1)) in *. assert (U : (0 < pow2 e)%Q) by apply pow2_pos.
  assert (P1 : (pow2 (Qlog2 q) == inject_Z (2 ^ (p - 1)) * pow2 e)%Q). { rewrite <- pow2_Z by lia. rewrite <- pow2_add. unfold e. now replace (p - 1 + (Qlog2 q - (p - 1))) with (Qlog2 q) by lia. }
  assert (P2 : (pow2 (Qlog2 q + 1) == inject_Z (2 ^ p) * pow2 e)%Q). { rewrite <- pow2_Z by lia. rewrite <- pow2_add. unfold e. now replace (p + (Qlog2 q - (p - 1))) with (Qlog2 q + 1) by lia. }
  rewrite R, P1, P2. split; (apply Qmult_le_compat_r; [|lra]); rewrite <- Zle_Qle; [apply LO|apply UP].
  - apply Qle_shift_div_l; [exact U|]. rewrite <- P1. exact A.
  - apply Qle_shift_div_r; [exact U|]. rewrite <- P2. lra.
Qed.

Lemma rne_mono_pos p x y : 1 <= p -> (0 < x)%Q -> (x <= y)%Q -> (rne p x <= rne p y)%Q.
Proof.
  intros Hp P H. destruct (Qeq_dec x y) as [K|K]; [rewrite (rne_comp p x y K); lra|]. assert (LT : (x < y)%Q) by (destruct (Qle_lt_or_eq _ _ H); [auto|contradiction]).
  pose proof (Qlog2_mono x y P H) as L. destruct (Z.eq_dec (Qlog2 x) (Qlog2 y)) as [EL|NL].
  - destruct (rne_spec p x) as (z & R & ER & _); [lra|]. destruct (rne_spec p y) as (z' & R' & ER' & _); [lra|]. rewrite <- EL in *.
    set (u := pow2 _) in *. assert (U : (0 < u)%Q) by apply pow2_pos. rewrite R, R'. apply Qmult_le_compat_r; [|lra].
    apply Qabs_Qle_condition in ER, ER'. assert (XY : (x / u < y / u)%Q) by (unfold Qdiv; apply Qmult_lt_compat_r; [now apply Qinv_lt_0_compat|auto]).
    rewrite <- Zle_Qle. destruct (Z_le_gt_dec z z'); auto. exfalso.
    assert (inject_Z (z' + 1) <= inject_Z z)%Q as G by (rewrite <- Zle_Qle; lia). rewrite inject_Z_plus in G. change (inject_Z 1) with 1%Q in G. lra.
  - destruct (rne_binade p x Hp P) as [_ A]. destruct (rne_binade p y Hp) as [B _]; [lra|].
    assert (pow2 (Qlog2 x + 1) <= pow2 (Qlog2 y))%Q by (apply pow2_le; lia). lra.
Qed.

Lemma Zrne_opp n d : 0 < d -> Zrne (- n) d = - Zrne n d.
Proof.
  intros Hd. unfold Zrne.
  pose proof (Z.div_mod n d ltac:(lia)) as M. pose proof (Z.mod_pos_bound n d Hd) as B.
  pose proof (Z.div_mod (- n) d ltac:(lia)) as M'. pose proof (Z.mod_pos_bound (- n) d Hd) as B'.
  set (q := n / d) in *. set (r := n mod d) in *. set (q' := (- n) / d) in *. set (r' := (- n) mod d) in *. clearbody q r q' r'.
  assert (S : d * (q + q') = - (r + r')) by lia.
  destruct (Z.eq_dec r 0) as [->|NR].
  - assert (K : q + q' = 0). { assert (-1 < q + q') by nia. assert (q + q' < 1) by nia. lia. }
    assert (q' = - q) as -> by lia. assert (r' = 0) as -> by nia. change (2 * 0) with 0. assert ((0 ?= d) = Lt) as -> by (apply Z.compare_lt_iff; lia). lia.
  - assert (K : q + q' = -1). { assert (-2 < q + q') by nia. assert (q + q' < 0) by nia. lia. }
    assert (q' = - q - 1) as -> by lia. assert (r' = d - r) as -> by nia.
    destruct (Z.compare_spec (2 * r) d), (Z.compare_spec (2 * (d - r)) d); try lia.
    replace (- q - 1) with (- (q + 1)) by lia. rewrite Z.even_opp, Z.even_add. cbn. destruct (Z.even q); cbn; lia.
Qed.

Lemma rne_opp p q : (rne p (- q) == - rne p q)%Q.
Proof.
  unfold rne. rewrite Qlog2_opp. cbn [Qnum Qden Qopp]. destruct (Z.eqb_spec (Qnum q) 0) as [->|N]; [reflexivity|].
  destruct (Z.eqb_spec (- Qnum q) 0); [lia|]. set (e := Qlog2 q - (p - 1)). destruct (Z.leb_spec 0 e).
  - assert (0 < 2 ^ e) by (apply Z.pow_pos_nonneg; lia). rewrite Zrne_opp by lia. rewrite Z.mul_opp_l, inject_Z_opp. reflexivity.
  - rewrite !Qred_correct, Z.mul_opp_l, Zrne_opp by lia. reflexivity.
Qed.

Lemma rne_pos p q : 1 <= p -> (0 <= q)%Q -> (0 <= rne p q)%Q.
Proof.
  intros Hp H. destruct (Qeq_dec q 0) as [Z|NZ]; [rewrite (rne_zero p q Z); lra|].
  destruct (rne_binade p q Hp) as [A _]; [destruct (Qle_lt_or_eq _ _ H); [auto|exfalso; apply NZ; lra]|]. pose proof (pow2_pos (Qlog2 q)). lra.
Qed.

Lemma rne_mono p x y : 1 <= p -> (x <= y)%Q -> (rne p x <= rne p y)%Q.
Proof.
  intros Hp H. destruct (Qlt_le_dec 0 x) as [PX|NX]; [now apply rne_mono_pos|].
  destruct (Qlt_le_dec y 0) as [NY|PY].
  - assert (K : (rne p (- y) <= rne p (- x))%Q) by (apply rne_mono_pos; [auto|lra|lra]). rewrite !rne_opp in K. lra.
  - pose proof (rne_pos p y Hp PY). pose proof (rne_pos p (- x) Hp ltac:(lra)) as K. rewrite rne_opp in K. lra.
Qed.

(** Whole numbers of at most p bits are kept. *)
Lemma rne_Z p k : 1 <= p -> Z.abs k < 2 ^ p -> (rne p (inject_Z k) == inject_Z k)%Q.
Proof.
  intros Hp.
  assert (G : forall k, 0 <= k < 2 ^ p -> (rne p (inject_Z k) == inject_Z k)%Q).
  { intros j Hj. destruct (Z.eq_dec j 0) as [->|N]; [apply Qeq_refl|].
    assert (0 < inject_Z j)%Q by (apply inject_Z_pos; lia).
    assert (inject_Z j < pow2 p)%Q by (rewrite pow2_Z by lia; rewrite <- Zlt_Qlt; lia).
    apply Qle_antisym; [apply rne_le_Z|apply rne_ge_Z]; auto; lra. }
  intros H. destruct (Z_le_gt_dec 0 k); [apply G; lia|].
  replace k with (- - k) by lia. rewrite inject_Z_opp, rne_opp, G by lia. reflexivity.
Qed.

(** Numbers with at most p significant bits are kept. *)
Lemma rne_dyadic p q k e : 1 <= p -> Z.abs k < 2 ^ p -> (q == inject_Z k * pow2 e)%Q -> (rne p q == q)%Q.
Proof.
  intros Hp.
  assert (G : forall q k, 0 < k < 2 ^ p -> (q == inject_Z k * pow2 e)%Q -> (rne p q == q)%Q).
  { intros x j Hj Q. assert (JP : (0 < inject_Z j)%Q) by (apply inject_Z_pos; lia).
    assert (XP : (0 < x)%Q). { rewrite Q. apply Qmult_lt_0_compat; [auto|apply pow2_pos]. }
    assert (NZ : ~ (x == 0)%Q) by lra. destruct (Qlog2_bounds x NZ) as [LB _]. rewrite Qabs_pos in LB by lra.
    assert (XB : (x < pow2 (p + e))%Q).
    { rewrite Q, pow2_add. apply Qmult_lt_r; [apply pow2_pos|]. rewrite pow2_Z by lia. rewrite <- Zlt_Qlt. lia. }
    assert (L : Qlog2 x < p + e). { destruct (Z_lt_le_dec (Qlog2 x) (p + e)); auto. apply pow2_le in l. lra. }
    destruct (rne_spec p x NZ) as (z & R & _ & U & V). set (u := Qlog2 x - (p - 1)) in *.
    assert (XU : (x / pow2 u == inject_Z (j * 2 ^ (e - u)))%Q).
    { rewrite Q, inject_Z_mult, <- pow2_Z by lia. unfold Z.sub. rewrite pow2_add, pow2_opp.
      pose proof (pow2_pos u). field. lra. }
    assert (z = j * 2 ^ (e - u)) as ->.
    { apply Z.le_antisymm; [apply V|apply U]; rewrite XU; apply Qle_refl. }
    rewrite R, <- XU. pose proof (pow2_pos u). field. lra. }
  intros H Q. destruct (Z.lt_trichotomy k 0) as [N|[->|P]].
  - assert (K : (rne p (- q) == - q)%Q).
    { apply (G (- q)%Q (- k)); [lia|]. rewrite Q, inject_Z_opp. ring. }
    rewrite rne_opp in K. rewrite <- (Qopp_involutive (rne p q)), K. ring.
  - assert (q == 0)%Q as Z by (rewrite Q; change (inject_Z 0) with 0%Q; ring). rewrite (rne_zero p q Z), Z. reflexivity.
  - apply (G q k); [lia|exact Q].
Qed.
