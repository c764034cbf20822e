(** Instances for the inflation model: the single precision distance table, and
    priority queues. *)
From Coq Require Import ZArith QArith Qabs Qround Qpower String List Bool Permutation Sorting Lia Lqa.
From Verif Require Import Base Mat CostMap Inflation Spec InflationSpec BaseLemmas FloatLemmas LineProofs.
Import ListNotations.
Open Scope Z_scope.

(** ** The distance table *)

Definition heps : Q := 1 # (2 ^ 50).

(** Results of std::hypot on double: relative error at most 2^-50, i.e. four times
    the unit roundoff. *)
Definition hypot_approx (h : Z -> Z -> Q) : Prop := forall a b, 0 <= a -> 0 <= b ->
  (0 <= h a b /\ (1 - heps) * (1 - heps) * inject_Z (a * a + b * b) <= h a b * h a b /\
   h a b * h a b <= (1 + heps) * (1 + heps) * inject_Z (a * a + b * b))%Q.

Lemma sq_le_inv a b : (0 <= b -> a * a <= b * b -> a <= b)%Q.
Proof. intros B H. destruct (Qlt_le_dec b a) as [C|C]; [exfalso; nra|exact C]. Qed.

Lemma sq_lt_inv a b : (0 <= b -> a * a < b * b -> a < b)%Q.
Proof. intros B H. destruct (Qlt_le_dec a b) as [C|C]; [exact C|exfalso; nra]. Qed.

Lemma round_down_to p x k : p = 24 -> 1 <= k <= 2048 -> (inject_Z k < x)%Q -> (x <= (1 + heps) * inject_Z k)%Q ->
  (rne p x <= inject_Z k)%Q.
Proof.
  intros -> Hk K1 K2. assert (KQ : (1 <= inject_Z k)%Q) by (change 1%Q with (inject_Z 1); rewrite <- Zle_Qle; lia).
  assert (KU : (inject_Z k <= 2048)%Q) by (change 2048%Q with (inject_Z 2048); rewrite <- Zle_Qle; lia).
  assert (NZ : ~ (x == 0)%Q) by lra. destruct (rne_spec 24 x NZ) as (z & R & ER & _).
  destruct (Qlog2_bounds x NZ) as [LB UB]. rewrite Qabs_pos in LB, UB by lra.
  assert (L0 : 0 <= Qlog2 x).
  { destruct (Z_le_gt_dec 0 (Qlog2 x)); auto. exfalso. assert (Qlog2 x + 1 <= 0) as K by lia. apply pow2_le in K. change (pow2 0) with 1%Q in K. lra. }
  assert (L1 : Qlog2 x < 12).
  { destruct (Z_lt_le_dec (Qlog2 x) 12) as [K|K]; auto. exfalso. apply pow2_le in K. change (pow2 12) with 4096%Q in K.
    unfold heps in K2. assert ((1 + (1 # 2 ^ 50)) * inject_Z k <= 2049)%Q; [|lra].
    apply Qle_trans with ((1 + (1 # 2 ^ 50)) * 2048)%Q; [rewrite !(Qmult_comm (1 + _)); apply Qmult_le_compat_r; [lra|discriminate]|discriminate]. }
  set (e := Qlog2 x - (24 - 1)) in *. set (u := pow2 e) in *. assert (UP : (0 < u)%Q) by apply pow2_pos.
  assert (UL : (1 # (2 ^ 23) <= u)%Q). { unfold u. apply Qle_trans with (pow2 (-23)); [discriminate|]. apply pow2_le. lia. }
  assert (PK : (inject_Z (k * 2 ^ (- e)) * u == inject_Z k)%Q).
  { unfold u. rewrite inject_Z_mult, <- pow2_Z by lia. rewrite pow2_opp. field. unfold u in UP. lra. }
  rewrite R, <- PK. apply Qmult_le_compat_r; [|lra]. set (K := k * 2 ^ (- e)) in *. rewrite <- Zle_Qle.
  assert (Z1 : (inject_Z z < inject_Z (K + 1))%Q).
  { apply Qabs_Qle_condition in ER as [_ ER].
    assert (XU : (x / u <= inject_Z K + (1#4))%Q).
    { apply Qle_shift_div_r; [exact UP|]. unfold heps in K2.
      assert ((1 # 2 ^ 50) * inject_Z k <= (1#4) * u)%Q.
      { apply Qle_trans with ((1 # 2 ^ 50) * 2048)%Q; [rewrite !(Qmult_comm (1 # _)); apply Qmult_le_compat_r; [lra|discriminate]|].
        apply Qle_trans with ((1#4) * (1 # 2 ^ 23))%Q; [discriminate|lra]. }
      lra. }
    rewrite inject_Z_plus. change (inject_Z 1) with 1%Q. lra. }
  rewrite <- Zlt_Qlt in Z1. lia.
Qed.

(** Up to a radius of 2048 cells, the single precision table compares like the
    exact distances. *)
Lemma hypot_dist_ok h r : hypot_approx h -> 0 <= r <= 2048 -> dist_ok (fun a b => rne 24 (h a b)) r.
Proof.
  intros HA Hr a b k Ha Hb Hk. destruct (HA a b) as (H0 & H1 & H2); try lia. set (x := h a b) in *. clearbody x.
  set (n := a * a + b * b) in *. assert (N0 : 0 <= n <= 2 * (2049 * 2049)) by (unfold n; nia). clearbody n.
  assert (KQ : (0 <= inject_Z k)%Q) by (change 0%Q with (inject_Z 0); rewrite <- Zle_Qle; lia).
  assert (XB : (x < pow2 24)%Q).
  { apply sq_lt_inv; [discriminate|]. eapply Qle_lt_trans; [exact H2|].
    apply Qle_lt_trans with ((1 + heps) * (1 + heps) * inject_Z (2 * (2049 * 2049)))%Q; [|reflexivity].
    rewrite !(Qmult_comm ((1 + heps) * (1 + heps))). apply Qmult_le_compat_r; [rewrite <- Zle_Qle; lia|discriminate]. }
  split.
  - intros R. destruct (Z_le_gt_dec n (k * k)) as [K|K]; [exact K|exfalso].
    pose proof (rne_error 24 x ltac:(lia)) as ER. rewrite (Qabs_pos x H0) in ER. apply Qabs_Qle_condition in ER as [ER _].
    change (pow2 (-(24))) with (1 # 2 ^ 24)%Q in ER.
    assert (LT : ((1 - (1 # 2 ^ 24)) * x <= inject_Z k)%Q) by lra.
    assert (SQ : ((1 - (1 # 2 ^ 24)) * x * ((1 - (1 # 2 ^ 24)) * x) <= inject_Z k * inject_Z k)%Q).
    { apply Qle_trans with ((1 - (1 # 2 ^ 24)) * x * inject_Z k)%Q.
      - rewrite (Qmult_comm ((1 - (1 # 2 ^ 24)) * x) (inject_Z k)). apply Qmult_le_compat_r; [exact LT|]. apply Qmult_le_0_compat; [discriminate|exact H0].
      - apply Qmult_le_compat_r; [exact LT|exact KQ]. }
    assert (NK : (inject_Z k * inject_Z k + 1 <= inject_Z n)%Q).
    { rewrite <- inject_Z_mult. change 1%Q with (inject_Z 1). rewrite <- inject_Z_plus, <- Zle_Qle. lia. }
    assert (KB : (inject_Z k * inject_Z k <= 4194304)%Q).
    { rewrite <- inject_Z_mult. change 4194304%Q with (inject_Z 4194304). rewrite <- Zle_Qle. nia. }
    assert (KP : (0 <= inject_Z k * inject_Z k)%Q) by now apply Qmult_le_0_compat.
    set (kk := (inject_Z k * inject_Z k)%Q) in *. clearbody kk.
    set (c := ((1 - (1 # 2 ^ 24)) * (1 - (1 # 2 ^ 24)) * ((1 - heps) * (1 - heps)))%Q) in *.
    assert (C1 : (c * inject_Z n <= kk)%Q).
    { eapply Qle_trans; [|exact SQ].
      assert (E1 : ((1 - (1 # 2 ^ 24)) * x * ((1 - (1 # 2 ^ 24)) * x) == (1 - (1 # 2 ^ 24)) * (1 - (1 # 2 ^ 24)) * (x * x))%Q) by ring.
      assert (E2 : (c * inject_Z n == (1 - (1 # 2 ^ 24)) * (1 - (1 # 2 ^ 24)) * ((1 - heps) * (1 - heps) * inject_Z n))%Q) by (unfold c; ring).
      rewrite E1, E2. rewrite !(Qmult_comm ((1 - (1 # 2 ^ 24)) * (1 - (1 # 2 ^ 24)))). apply Qmult_le_compat_r; [exact H1|discriminate]. }
    assert (C2 : (1 - (1 # 2 ^ 22) * (51 # 100) <= c)%Q) by (vm_compute; discriminate). clearbody c.
    assert (C3 : ((1 - (1 # 2 ^ 22) * (51 # 100)) * (kk + 1) <= c * inject_Z n)%Q).
    { apply Qle_trans with (c * (kk + 1))%Q; [apply Qmult_le_compat_r; [exact C2|lra]|].
      rewrite !(Qmult_comm c). apply Qmult_le_compat_r; [exact NK|]. eapply Qle_trans; [|exact C2]. discriminate. }
    change (1 # 2 ^ 22)%Q with (1 # 4194304)%Q in C3. lra.
  - intros K. assert (XK : (x <= (1 + heps) * inject_Z k)%Q).
    { apply sq_le_inv; [apply Qmult_le_0_compat; [discriminate|exact KQ]|]. eapply Qle_trans; [exact H2|].
      assert (EQ : ((1 + heps) * inject_Z k * ((1 + heps) * inject_Z k) == (1 + heps) * (1 + heps) * inject_Z (k * k))%Q) by (rewrite inject_Z_mult; ring).
      rewrite EQ, !(Qmult_comm ((1 + heps) * (1 + heps))). apply Qmult_le_compat_r; [rewrite <- Zle_Qle; lia|discriminate]. }
    destruct (Qlt_le_dec 0 x) as [XP|XN].
    + destruct (Qlt_le_dec (inject_Z k) x) as [C|C].
      * apply round_down_to; auto. destruct (Z.eq_dec k 0) as [->|NE]; [|lia]. exfalso. change (inject_Z 0) with 0%Q in XK. lra.
      * apply rne_le_Z; auto. lia.
    + rewrite rne_zero; [exact KQ|lra].
Qed.

(** A computable hypot. *)
Definition qhypot (a b : Z) : Q := Z.sqrt ((a * a + b * b) * 4 ^ 60) # (2 ^ 60).

Lemma qhypot_ok : hypot_approx qhypot.
Proof.
  intros a b Ha Hb. unfold qhypot. set (n := a * a + b * b). assert (N : 0 <= n) by (unfold n; nia). clearbody n.
  set (s := Z.sqrt (n * 4 ^ 60)). assert (S : s * s <= n * 4 ^ 60 < Z.succ s * Z.succ s) by (apply Z.sqrt_spec; nia).
  assert (S0 : 0 <= s) by apply Z.sqrt_nonneg. clearbody s.
  split; [unfold Qle; cbn; lia|]. unfold heps. unfold Qle, Qmult, Qplus, Qminus, Qopp, inject_Z. cbn [Qnum Qden].
  change (4 ^ 60) with (2 ^ 60 * 2 ^ 60) in S. set (T := 2 ^ 60) in *.
  assert (TP : T = 1152921504606846976) by reflexivity. clearbody T.
  assert (P60 : Zpos (2 ^ 60) = T) by (rewrite TP; reflexivity).
  assert (P50 : Zpos (2 ^ 50) = 1125899906842624) by reflexivity.
  assert (E1 : Qnum (1 + (- (1) # 2 ^ 50)) = 1125899906842624 - 1) by reflexivity.
  assert (E2 : QDen (1 + (- (1) # 2 ^ 50)) = 1125899906842624) by reflexivity.
  rewrite !Pos2Z.inj_mul, P60, P50, ?E1, ?E2. change (Zpos 1) with 1. clear E1 E2.
  destruct (Z.eq_dec n 0) as [->|NZ].
  - assert (s = 0) by nia. subst s. lia.
  - assert (SL : T <= s) by nia. set (D := 1125899906842624) in *. assert (DT : 1 < D <= T) by (unfold D; lia). clearbody D.
    assert (L1 : (D - 1) * (s + 1) <= D * s) by nia.
    assert (L2 : (D - 1) * (s + 1) * ((D - 1) * (s + 1)) <= D * s * (D * s)) by (apply Z.mul_le_mono_nonneg; nia).
    assert (L3 : (D - 1) * (D - 1) * (n * (T * T)) <= (D - 1) * (D - 1) * ((s + 1) * (s + 1))) by (apply Z.mul_le_mono_nonneg_l; [nia|lia]).
    assert (L4 : D * D * (s * s) <= D * D * (n * (T * T))) by (apply Z.mul_le_mono_nonneg_l; [nia|lia]).
    assert (L5 : D * D * (n * (T * T)) <= (D + 1) * (D + 1) * (n * (T * T))) by (apply Z.mul_le_mono_nonneg_r; [nia|nia]).
    split; lia.
Qed.

Definition float_env : fenv := FEnv (rne 24) (fun a b => rne 24 (qhypot a b)).

Lemma float_env_ok r : 0 <= r <= 2048 -> dist_ok (hyp float_env) r.
Proof. apply hypot_dist_ok, qhypot_ok. Qed.

(** ** Queues *)

(** A sorted list; [late] puts a new cell behind or before its equals. *)
Fixpoint q_insert (late : bool) (c : qcell) (l : list qcell) : list qcell :=
  match l with
  | [] => [c]
  | x :: t => if (if late then Qlt_bool (q_dist c) (q_dist x) else Qle_bool (q_dist c) (q_dist x))
              then c :: x :: t else x :: q_insert late c t
  end.
Definition list_queue (late : bool) : pqueue :=
  PQueue (list qcell) [] (q_insert late) (fun l => match l with [] => None | x :: t => Some (x, t) end).

Definition q_le (a b : qcell) : Prop := (q_dist a <= q_dist b)%Q.

Lemma q_insert_perm late c l : Permutation (q_insert late c l) (c :: l).
Proof.
  induction l as [|x t IH]; [reflexivity|]. cbn. destruct (if late then _ else _); [reflexivity|].
  rewrite IH. apply perm_swap.
Qed.

Lemma q_insert_sorted late c l : StronglySorted q_le l -> StronglySorted q_le (q_insert late c l).
Proof.
  induction 1 as [|x t S IH FA]; [constructor; constructor|]. cbn.
  assert (D : (if late then Qlt_bool (q_dist c) (q_dist x) else Qle_bool (q_dist c) (q_dist x)) = true -> (q_dist c <= q_dist x)%Q).
  { destruct late; intros H; [apply Qlt_bool_iff in H; lra|now apply Qle_bool_iff]. }
  assert (D' : (if late then Qlt_bool (q_dist c) (q_dist x) else Qle_bool (q_dist c) (q_dist x)) = false -> (q_dist x <= q_dist c)%Q).
  { destruct late; intros H; [now apply Qlt_bool_false|]. apply Qle_bool_false in H. lra. }
  destruct (if late then _ else _).
  - specialize (D eq_refl). constructor; [now constructor|]. constructor; [exact D|].
    rewrite Forall_forall in *. intros y Hy. specialize (FA y Hy). unfold q_le in *. lra.
  - specialize (D' eq_refl). constructor; [exact IH|]. rewrite Forall_forall in *. intros y Hy.
    apply (Permutation_in y (q_insert_perm late c t)) in Hy as [<-|Hy]; [exact D'|now apply FA].
Qed.

Definition list_queue_spec late : pq_spec (list_queue late).
Proof.
  refine (Build_pq_spec (list_queue late) (fun l => l) (StronglySorted q_le) _ _ _ _ _ _); cbn.
  - constructor.
  - reflexivity.
  - intros c q. apply q_insert_sorted.
  - intros c q _. apply q_insert_perm.
  - intros q _. destruct q; [reflexivity|discriminate].
  - intros c q q' S. destruct q as [|x t]; [discriminate|]. intros H. injection H as <- <-. inversion S as [|? ? S' FA]; subst.
    split; [exact S'|]. split; [reflexivity|]. rewrite Forall_forall in FA. exact FA.
Defined.
