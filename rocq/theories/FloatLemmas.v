(** Rounding to nearest in binary64. *)
From Coq Require Import ZArith QArith Qround Qabs Qpower Qreduction List Bool Lia Lqa.
From Verif Require Import Base BaseLemmas.
Open Scope Z_scope.

Lemma Zrne_lower n d k : 0 < d -> k * d <= n -> k <= Zrne n d.
Proof.
  intros Hd H. assert (k <= n / d) by (apply Z.div_le_lower_bound; lia).
  unfold Zrne. destruct (Z.compare _ _); try lia. destruct (Z.even _); lia.
Qed.

Lemma Zrne_upper n d k : 0 < d -> n <= k * d -> Zrne n d <= k.
Proof.
  intros Hd H. assert (HM := Z.div_mod n d ltac:(lia)). assert (HB := Z.mod_pos_bound n d Hd).
  unfold Zrne. set (q := n / d) in *. set (r := n mod d) in *. clearbody q r.
  assert (q <= k) by nia. destruct (Z.eq_dec q k) as [->|NE].
  - assert (r = 0) by nia. subst r. assert (2 * 0 ?= d = Lt) as -> by (apply Z.compare_lt_iff; lia). lia.
  - destruct (Z.compare _ _); try lia. destruct (Z.even _); lia.
Qed.

Lemma Zrne_error n d : 0 < d -> 2 * Z.abs (Zrne n d * d - n) <= d.
Proof.
  intros Hd. assert (HM := Z.div_mod n d ltac:(lia)). assert (HB := Z.mod_pos_bound n d Hd).
  unfold Zrne. set (q := n / d) in *. set (r := n mod d) in *. clearbody q r.
  assert (E1 : q * d - n = - r) by (rewrite HM; ring). assert (E2 : (q + 1) * d - n = d - r) by (rewrite HM; ring).
  destruct (2 * r ?= d) eqn:K.
  - apply Z.compare_eq_iff in K. destruct (Z.even q); [rewrite E1|rewrite E2]; lia.
  - rewrite Z.compare_lt_iff in K. rewrite E1. lia.
  - rewrite Z.compare_gt_iff in K. rewrite E2. lia.
Qed.

(** 2^(Qlog2 q) <= |q| < 2^(Qlog2 q + 1). *)
Lemma Qlog2_spec q : Qnum q <> 0 ->
  let L := Qlog2 q in let n := Z.abs (Qnum q) in let d := Zpos (Qden q) in
  (0 <= L -> d * 2 ^ L <= n < d * 2 ^ (L + 1)) /\ (L < 0 -> d <= n * 2 ^ (- L) /\ n * 2 ^ (- L - 1) < d).
Proof.
  intros NZ L n d. unfold L, Qlog2. fold n d. clear L.
  assert (Hn : 0 < n) by (unfold n; lia). assert (Hd : 0 < d) by (unfold d; lia). clearbody n d. clear NZ q.
  destruct (Z.log2_spec n Hn) as [N1 N2]. destruct (Z.log2_spec d Hd) as [D1 D2].
  pose proof (Z.log2_nonneg n) as LN. pose proof (Z.log2_nonneg d) as LD.
  set (a := Z.log2 n) in *. set (b := Z.log2 d) in *. clearbody a b.
  assert (P : forall x y, 0 <= x -> 0 <= y -> 2 ^ (x + y) = 2 ^ x * 2 ^ y) by (intros; apply Z.pow_add_r; lia).
  assert (PP : forall x, 0 <= x -> 0 < 2 ^ x) by (intros; apply Z.pow_pos_nonneg; lia).
  assert (S1 : 2 ^ Z.succ a = 2 * 2 ^ a) by (rewrite Z.pow_succ_r; lia).
  assert (S2 : 2 ^ Z.succ b = 2 * 2 ^ b) by (rewrite Z.pow_succ_r; lia).
  rewrite S1 in N2. rewrite S2 in D2.
  destruct (Z.leb_spec 0 (a - b)) as [He|He].
  - assert (Ea : 2 ^ a = 2 ^ (a - b) * 2 ^ b) by (rewrite <- P by lia; f_equal; lia).
    pose proof (PP (a - b) He). pose proof (PP b LD).
    destruct (Z.leb_spec (d * 2 ^ (a - b)) n) as [K|K].
    + split; [|lia]. intros _. split; [exact K|]. rewrite (P (a - b) 1) by lia. change (2 ^ 1) with 2. nia.
    + destruct (Z.eq_dec (a - b) 0) as [E0|NE].
      * rewrite E0 in *. change (2 ^ 0) with 1 in *. split; [lia|]. intros _.
        change (2 ^ (- (0 - 1))) with 2. change (2 ^ (- (0 - 1) - 1)) with 1. split; nia.
      * assert (Eb : 2 ^ (a - b) = 2 * 2 ^ (a - b - 1)).
        { rewrite <- (Z.pow_succ_r 2 (a - b - 1)) by lia. f_equal. lia. }
        pose proof (PP (a - b - 1) ltac:(lia)). split; [|lia]. intros _.
        replace (a - b - 1 + 1) with (a - b) by lia. split; [nia|lia].
  - assert (Eb : 2 ^ b = 2 ^ (- (a - b)) * 2 ^ a) by (rewrite <- P by lia; f_equal; lia).
    pose proof (PP (- (a - b)) ltac:(lia)). pose proof (PP a LN).
    destruct (Z.leb_spec d (n * 2 ^ (- (a - b)))) as [K|K].
    + split; [lia|]. intros _. split; [exact K|].
      assert (Ec : 2 ^ (- (a - b)) = 2 * 2 ^ (- (a - b) - 1)).
      { rewrite <- (Z.pow_succ_r 2 (- (a - b) - 1)) by lia. f_equal. lia. }
      pose proof (PP (- (a - b) - 1) ltac:(lia)). nia.
    + split; [lia|]. intros _. replace (- (a - b - 1)) with (1 + - (a - b)) by lia.
      rewrite (P 1 (- (a - b))) by lia. change (2 ^ 1) with 2.
      replace (1 + - (a - b) - 1) with (- (a - b)) by lia. split; nia.
Qed.

Lemma rne_zero p q : (q == 0)%Q -> rne p q = 0%Q.
Proof.
  intros H. unfold rne. unfold Qeq in H. cbn in H. assert (Qnum q = 0) as -> by lia. reflexivity.
Qed.

(** Rounding does not cross +1 and -1. *)
Lemma rne_ge1 q : (1 <= q)%Q -> (1 <= rne 53 q)%Q.
Proof.
  intros H. unfold Qle in H. cbn [Qnum Qden] in H.
  assert (NZ : Qnum q <> 0) by lia. destruct (Qlog2_spec q NZ) as [S1 S2]. unfold rne.
  destruct (Z.eqb_spec (Qnum q) 0) as [Z0|_]; [lia|]. set (e := Qlog2 q - (53 - 1)).
  destruct (Z.leb_spec 0 e) as [He|He].
  - destruct S1 as [S1 _]; [lia|]. change 1%Q with (inject_Z 1). rewrite <- Zle_Qle.
    assert (P : 0 < 2 ^ e) by (apply Z.pow_pos_nonneg; lia).
    assert (1 <= Zrne (Qnum q) (Zpos (Qden q) * 2 ^ e)); [|nia].
    apply Zrne_lower; [nia|]. 
    assert (2 ^ Qlog2 q = 2 ^ e * 2 ^ 52) by (rewrite <- Z.pow_add_r by lia; f_equal; lia). nia.
  - rewrite Qred_correct. unfold Qle. cbn [Qnum Qden].
    assert (P : 0 < 2 ^ (- e)) by (apply Z.pow_pos_nonneg; lia).
    rewrite Z2Pos.id by lia. rewrite Z.mul_1_r, Z.mul_1_l. apply Zrne_lower; [lia|]. nia.
Qed.

Lemma rne_le1 q : (q <= -1)%Q -> (rne 53 q <= -1)%Q.
Proof.
  intros H. unfold Qle in H. cbn [Qnum Qden] in H.
  assert (NZ : Qnum q <> 0) by lia. destruct (Qlog2_spec q NZ) as [S1 S2]. unfold rne.
  destruct (Z.eqb_spec (Qnum q) 0) as [Z0|_]; [lia|]. set (e := Qlog2 q - (53 - 1)).
  destruct (Z.leb_spec 0 e) as [He|He].
  - destruct S1 as [S1 _]; [lia|]. change (-1)%Q with (inject_Z (-1)). rewrite <- Zle_Qle.
    assert (P : 0 < 2 ^ e) by (apply Z.pow_pos_nonneg; lia).
    assert (Zrne (Qnum q) (Zpos (Qden q) * 2 ^ e) <= -1); [|nia].
    apply Zrne_upper; [nia|]. 
    assert (2 ^ Qlog2 q = 2 ^ e * 2 ^ 52) by (rewrite <- Z.pow_add_r by lia; f_equal; lia). nia.
  - rewrite Qred_correct. unfold Qle. cbn [Qnum Qden].
    assert (P : 0 < 2 ^ (- e)) by (apply Z.pow_pos_nonneg; lia).
    rewrite Z2Pos.id by lia. rewrite Z.mul_1_r. 
    assert (Zrne (Qnum q * 2 ^ (- e)) (Zpos (Qden q)) <= - 2 ^ (- e)); [|lia].
    apply Zrne_upper; [lia|]. nia.
Qed.

(** ** Rounding in terms of powers of two *)

Definition pow2 (e : Z) : Q := ((2#1) ^ e)%Q.

Lemma pow2_pos e : (0 < pow2 e)%Q.
Proof. apply Qpower_0_lt. reflexivity. Qed.

Lemma pow2_Z e : 0 <= e -> (pow2 e == inject_Z (2 ^ e))%Q.
Proof. intros H. unfold pow2. change (2#1)%Q with (inject_Z 2). rewrite Zpower_Qpower by auto. reflexivity. Qed.

Lemma pow2_add a b : (pow2 (a + b) == pow2 a * pow2 b)%Q.
Proof. apply Qpower_plus. intros H. discriminate. Qed.

Lemma pow2_opp a : (pow2 (- a) == / pow2 a)%Q.
Proof. apply Qpower_opp. Qed.

Lemma pow2_le a b : a <= b -> (pow2 a <= pow2 b)%Q.
Proof. intros H. apply Qpower_le_compat_l; [exact H|]. discriminate. Qed.

Lemma pow2_lt a b : a < b -> (pow2 a < pow2 b)%Q.
Proof. intros H. apply Qpower_lt_compat_l; [exact H|]. reflexivity. Qed.

Lemma Qlog2_bounds q : ~ (q == 0)%Q -> (pow2 (Qlog2 q) <= Qabs q)%Q /\ (Qabs q < pow2 (Qlog2 q + 1))%Q.
Proof.
  intros NZ. assert (N : Qnum q <> 0). { intros K. apply NZ. destruct q as [n d]. cbn in K. subst. reflexivity. }
  destruct (Qlog2_spec q N) as [S1 S2]. set (L := Qlog2 q) in *. clearbody L.
  assert (QA : (Qabs q == inject_Z (Z.abs (Qnum q)) / inject_Z (Zpos (Qden q)))%Q).
  { destruct q as [n d]. cbn. now rewrite <- Qmake_Qdiv. }
  assert (DP : (0 < inject_Z (Zpos (Qden q)))%Q) by (apply inject_Z_pos; lia).
  destruct (Z_le_gt_dec 0 L) as [HL|HL].
  - destruct (S1 HL) as [A B]. rewrite QA, !pow2_Z by lia. split.
    + apply Qle_shift_div_l; [exact DP|]. rewrite <- inject_Z_mult, <- Zle_Qle. lia.
    + apply Qlt_shift_div_r; [exact DP|]. rewrite <- inject_Z_mult, <- Zlt_Qlt. lia.
  - destruct (S2 ltac:(lia)) as [A B]. rewrite QA.
    assert (E1 : (pow2 L == / inject_Z (2 ^ (- L)))%Q).
    { rewrite <- pow2_Z by lia. rewrite pow2_opp. rewrite Qinv_involutive. reflexivity. }
    assert (E2 : (pow2 (L + 1) == / inject_Z (2 ^ (- L - 1)))%Q).
    { rewrite <- pow2_Z by lia. replace (- L - 1) with (- (L + 1)) by lia. rewrite pow2_opp. rewrite Qinv_involutive. reflexivity. }
    rewrite E1, E2. assert (P1 : (0 < inject_Z (2 ^ (- L)))%Q) by (apply inject_Z_pos, Z.pow_pos_nonneg; lia).
    assert (P2 : (0 < inject_Z (2 ^ (- L - 1)))%Q) by (apply inject_Z_pos, Z.pow_pos_nonneg; lia).
    split.
    + apply Qle_shift_div_l; [exact DP|]. rewrite Qmult_comm. apply Qle_shift_div_r; [exact P1|]. rewrite <- inject_Z_mult, <- Zle_Qle. lia.
    + apply Qlt_shift_div_r; [exact DP|]. rewrite Qmult_comm. apply Qlt_shift_div_l; [exact P2|]. rewrite <- inject_Z_mult, <- Zlt_Qlt. lia.
Qed.

(** Rounding q to p bits rounds q / u to a whole number, u the unit of q. *)
Lemma rne_spec p q : ~ (q == 0)%Q -> let u := pow2 (Qlog2 q - (p - 1)) in
  exists z : Z, (rne p q == inject_Z z * u)%Q /\
    (Qabs (inject_Z z - q / u) <= 1#2)%Q /\
    (forall k, (inject_Z k <= q / u)%Q -> k <= z) /\ (forall k, (q / u <= inject_Z k)%Q -> z <= k).
Proof.
  intros NZ u. assert (N : Qnum q <> 0). { intros K. apply NZ. destruct q as [n d]. cbn in K. subst. reflexivity. }
  set (e := Qlog2 q - (p - 1)) in *.
  assert (G : exists n d, 0 < d /\ (rne p q == inject_Z (Zrne n d) * u)%Q /\ (q / u == inject_Z n / inject_Z d)%Q).
  { assert (QQ : (q == inject_Z (Qnum q) / inject_Z (Zpos (Qden q)))%Q) by (destruct q as [n d]; cbn; now rewrite <- Qmake_Qdiv).
    assert (DP : (0 < inject_Z (Zpos (Qden q)))%Q) by (apply inject_Z_pos; lia).
    unfold rne. destruct (Z.eqb_spec (Qnum q) 0) as [K|_]; [contradiction|]. fold e.
    destruct (Z.leb_spec 0 e) as [He|He].
    - exists (Qnum q), (Zpos (Qden q) * 2 ^ e). assert (PE : 0 < 2 ^ e) by (apply Z.pow_pos_nonneg; lia).
      assert (PQ : (0 < inject_Z (2 ^ e))%Q) by now apply inject_Z_pos.
      split; [nia|]. unfold u. rewrite pow2_Z by lia. rewrite !inject_Z_mult. split; [reflexivity|].
      rewrite QQ at 1. field. split; lra.
    - exists (Qnum q * 2 ^ (- e)), (Zpos (Qden q)). assert (PE : 0 < 2 ^ (- e)) by (apply Z.pow_pos_nonneg; lia).
      assert (PQ : (0 < inject_Z (2 ^ (- e)))%Q) by now apply inject_Z_pos.
      assert (U : (u == / inject_Z (2 ^ (- e)))%Q). { unfold u. rewrite <- pow2_Z by lia. rewrite pow2_opp, Qinv_involutive. reflexivity. }
      split; [lia|]. rewrite U. split.
      + rewrite Qred_correct, Qmake_Qdiv, Z2Pos.id by lia. reflexivity.
      + rewrite inject_Z_mult. rewrite QQ at 1. field. split; lra. }
  destruct G as (n & d & Hd & R & Y). exists (Zrne n d). split; [exact R|]. rewrite Y.
  assert (DP : (0 < inject_Z d)%Q) by now apply inject_Z_pos.
  split; [|split].
  - pose proof (Zrne_error n d Hd) as ER.
    assert (EQ : (inject_Z (Zrne n d) - inject_Z n / inject_Z d == inject_Z (Zrne n d * d - n) / inject_Z d)%Q).
    { unfold Z.sub. rewrite inject_Z_plus, inject_Z_mult, inject_Z_opp. field. lra. }
    rewrite EQ. apply Qabs_Qle_condition.
    assert (EH : (1#2 == inject_Z 1 / inject_Z 2)%Q) by reflexivity.
    split.
    + apply Qle_shift_div_l; [exact DP|].
      assert (inject_Z (- d) <= inject_Z (2 * (Zrne n d * d - n)))%Q as K by (rewrite <- Zle_Qle; lia).
      rewrite inject_Z_opp, inject_Z_mult in K. change (inject_Z 2) with 2%Q in K. lra.
    + apply Qle_shift_div_r; [exact DP|].
      assert (inject_Z (2 * (Zrne n d * d - n)) <= inject_Z d)%Q as K by (rewrite <- Zle_Qle; lia).
      rewrite inject_Z_mult in K. change (inject_Z 2) with 2%Q in K. lra.
  - intros k Hk. rewrite Y in Hk. apply Zrne_lower; [lia|].
    assert (K : (inject_Z k * inject_Z d <= inject_Z n)%Q).
    { apply (proj2 (Qmult_le_r _ _ (inject_Z d) DP)) in Hk. eapply Qle_trans; [exact Hk|]. apply Qle_lteq. right. field. lra. }
    rewrite <- inject_Z_mult, <- Zle_Qle in K. exact K.
  - intros k Hk. rewrite Y in Hk. apply Zrne_upper; [lia|].
    assert (K : (inject_Z n <= inject_Z k * inject_Z d)%Q).
    { apply (proj2 (Qmult_le_r _ _ (inject_Z d) DP)) in Hk. eapply Qle_trans; [|exact Hk]. apply Qle_lteq. right. field. lra. }
    rewrite <- inject_Z_mult, <- Zle_Qle in K. exact K.
Qed.

(** Relative error of a rounding. *)
Lemma rne_error p q : 1 <= p -> (Qabs (rne p q - q) <= pow2 (- p) * Qabs q)%Q.
Proof.
  intros Hp. destruct (Qeq_dec q 0) as [Z|NZ].
  - rewrite (rne_zero p q Z), Z. assert (0 - 0 == 0)%Q as -> by ring. change (Qabs 0) with 0%Q. rewrite Qmult_0_r. lra.
  - destruct (rne_spec p q NZ) as (z & R & ER & _). set (u := pow2 (Qlog2 q - (p - 1))) in *.
    assert (UP : (0 < u)%Q) by apply pow2_pos.
    destruct (Qlog2_bounds q NZ) as [LB _].
    assert (UE : (u == pow2 (Qlog2 q) * (2 * pow2 (- p)))%Q).
    { unfold u. replace (Qlog2 q - (p - 1)) with (Qlog2 q + (1 + - p)) by lia. rewrite !pow2_add. reflexivity. }
    rewrite R. assert (EQ : (inject_Z z * u - q == (inject_Z z - q / u) * u)%Q) by (field; lra).
    rewrite EQ, Qabs_Qmult, (Qabs_pos u) by lra.
    apply Qle_trans with ((1#2) * u)%Q; [apply Qmult_le_compat_r; lra|]. rewrite UE.
    assert (0 < pow2 (- p))%Q by apply pow2_pos.
    apply Qle_trans with (pow2 (- p) * pow2 (Qlog2 q))%Q; [apply Qle_lteq; right; ring|].
    rewrite !(Qmult_comm (pow2 (- p))). apply Qmult_le_compat_r; lra.
Qed.

(** Whole numbers (of at most p bits) bound roundings. *)
Lemma rne_le_Z p q k : 1 <= p -> (0 < q)%Q -> (q < pow2 p)%Q -> (q <= inject_Z k)%Q -> (rne p q <= inject_Z k)%Q.
Proof.
  intros Hp QP QB H. assert (NZ : ~ (q == 0)%Q) by lra. destruct (rne_spec p q NZ) as (z & R & _ & _ & U).
  destruct (Qlog2_bounds q NZ) as [LB _]. rewrite Qabs_pos in LB by lra.
  assert (L : Qlog2 q < p). { destruct (Z_lt_le_dec (Qlog2 q) p); auto. apply pow2_le in l. lra. }
  set (e := Qlog2 q - (p - 1)) in *. assert (UP : (0 < pow2 e)%Q) by apply pow2_pos.
  assert (PK : (inject_Z (k * 2 ^ (- e)) * pow2 e == inject_Z k)%Q).
  { rewrite inject_Z_mult, <- pow2_Z by lia. rewrite pow2_opp. field. lra. }
  rewrite R. rewrite <- PK. apply Qmult_le_compat_r; [|lra]. rewrite <- Zle_Qle. apply U.
  apply Qle_shift_div_r; [exact UP|]. rewrite PK. exact H.
Qed.

Lemma rne_ge_Z p q k : 1 <= p -> (0 < q)%Q -> (q < pow2 p)%Q -> (inject_Z k <= q)%Q -> (inject_Z k <= rne p q)%Q.
Proof.
  intros Hp QP QB H. assert (NZ : ~ (q == 0)%Q) by lra. destruct (rne_spec p q NZ) as (z & R & _ & U & _).
  destruct (Qlog2_bounds q NZ) as [LB _]. rewrite Qabs_pos in LB by lra.
  assert (L : Qlog2 q < p). { destruct (Z_lt_le_dec (Qlog2 q) p); auto. apply pow2_le in l. lra. }
  set (e := Qlog2 q - (p - 1)) in *. assert (UP : (0 < pow2 e)%Q) by apply pow2_pos.
  assert (PK : (inject_Z (k * 2 ^ (- e)) * pow2 e == inject_Z k)%Q).
  { rewrite inject_Z_mult, <- pow2_Z by lia. rewrite pow2_opp. field. lra. }
  rewrite R. rewrite <- PK. apply Qmult_le_compat_r; [|lra]. rewrite <- Zle_Qle. apply U.
  apply Qle_shift_div_l; [exact UP|]. rewrite PK. exact H.
Qed.
