(** Properties C44 - C46: the ROS inflation computer and deflation. *)
From Coq Require Import ZArith QArith Qabs Qround String List Bool Permutation Lia Lqa.
From Verif Require Import Base Mat GridMapMath GridIter CostMap Inflation Spec InflationSpec BaseLemmas FloatLemmas FloatMono GeoLemmas CoreProofs CoreProofs2 CoreFinal MoveProofs AddDataProofs InflateProofs InflateFinal InflateEnv InflateAlias Samples PropInflate.
Import ListNotations.
Open Scope Z_scope.

(** ** The ROS inflation computer *)

(** A rounding: monotone, and exact on small whole numbers. *)
Definition rounding (f : Q -> Q) : Prop :=
  (forall x y, (x <= y)%Q -> (f x <= f y)%Q) /\ forall k, Z.abs k < 2 ^ 16 -> (f (inject_Z k) == inject_Z k)%Q.

(** What is asked of std::exp: monotone, not negative, at most 1 up to 0. *)
Definition exp_like (ex : Q -> Q) : Prop :=
  (forall x y, (x <= y)%Q -> (ex x <= ex y)%Q) /\ (forall x, (0 <= ex x)%Q) /\ (forall x, (x <= 0)%Q -> (ex x <= 1)%Q).

Lemma round_le f k x : rounding f -> Z.abs k < 2 ^ 16 -> (x <= inject_Z k)%Q -> (f x <= inject_Z k)%Q.
Proof. intros [M K] Hk H. rewrite <- (K k Hk). now apply M. Qed.
Lemma round_ge f k x : rounding f -> Z.abs k < 2 ^ 16 -> (inject_Z k <= x)%Q -> (inject_Z k <= f x)%Q.
Proof. intros [M K] Hk H. rewrite <- (K k Hk). now apply M. Qed.

Lemma Qtrunc_mono x y : (0 <= x)%Q -> (x <= y)%Q -> Qtrunc x <= Qtrunc y.
Proof. intros H L. rewrite !Qtrunc_nonneg by lra. now apply Qfloor_resp_le. Qed.

Section Curve.
Context {E : Env} (F : fenv) (ex : Q -> Q) (RE : rounding rnd) (RF : rounding (f32 F)) (X : exp_like ex).
Context (ir w : Q) (Hw : (0 <= w)%Q).

Definition tail_value (d : Q) : Q :=
  fmul (inject_Z (INSCRIBED_OBSTACLE - 1)) (ex (fmul (fmul (-(1)) w) (f32 F (d - ir)))).

Lemma neg_weight : (fmul (-(1)) w <= 0)%Q.
Proof. unfold fmul. change 0%Q with (inject_Z 0). apply round_le; auto; [reflexivity|]. change (inject_Z 0) with 0%Q. lra. Qed.

Lemma diff_pos d : (ir <= d)%Q -> (0 <= f32 F (d - ir))%Q.
Proof. intros H. change 0%Q with (inject_Z 0). apply round_ge; auto; [reflexivity|]. change (inject_Z 0) with 0%Q. lra. Qed.

Lemma tail_range d : (ir <= d)%Q -> (0 <= tail_value d /\ tail_value d <= 252)%Q.
Proof.
  intros H. unfold tail_value. destruct X as (_ & X0 & X1).
  assert (A : (fmul (fmul (-(1)) w) (f32 F (d - ir)) <= 0)%Q).
  { pose proof neg_weight as N. pose proof (diff_pos d H) as D. unfold fmul at 1. change 0%Q with (inject_Z 0). apply round_le; auto; [reflexivity|].
    change (inject_Z 0) with 0%Q. set (a := fmul (-(1)) w) in *. set (b := f32 F (d - ir)) in *. clearbody a b. nra. }
  specialize (X1 _ A). set (e := ex _) in *. assert (E0 : (0 <= e)%Q) by apply X0. clearbody e.
  change (inject_Z (INSCRIBED_OBSTACLE - 1)) with (252 # 1)%Q. unfold fmul. split.
  - change 0%Q with (inject_Z 0). apply round_ge; auto; [reflexivity|]. change (inject_Z 0) with 0%Q. lra.
  - change 252%Q with (inject_Z 252) at 2. apply round_le; auto; [reflexivity|]. change (inject_Z 252) with 252%Q. lra.
Qed.

Lemma tail_mono d d' : (ir <= d)%Q -> (d <= d')%Q -> (tail_value d' <= tail_value d)%Q.
Proof.
  intros H L. unfold tail_value. destruct X as (XM & X0 & X1), RE as [ME _], RF as [MF _].
  unfold fmul at 1 4. apply ME. change (inject_Z (INSCRIBED_OBSTACLE - 1)) with (252 # 1)%Q.
  assert (K : (ex (fmul (fmul (-(1)) w) (f32 F (d' - ir))) <= ex (fmul (fmul (-(1)) w) (f32 F (d - ir))))%Q); [|lra].
  apply XM. pose proof neg_weight as N. pose proof (diff_pos d H) as D. assert (DL : (f32 F (d - ir) <= f32 F (d' - ir))%Q) by (apply MF; lra).
  unfold fmul at 1 3. apply ME. set (a := fmul (-(1)) w) in *. set (b := f32 F (d - ir)) in *. set (c := f32 F (d' - ir)) in *. clearbody a b c. nra.
Qed.

Lemma tail_cost d : (ir <= d)%Q -> to_uchar (tail_value d) = Ok (Qtrunc (tail_value d)) /\ 0 <= Qtrunc (tail_value d) <= 252.
Proof.
  intros H. destruct (tail_range d H) as [A B].
  assert (R : 0 <= Qtrunc (tail_value d) <= 252). { split; [change 0 with (Qtrunc 0)|change 252 with (Qtrunc 252)]; apply Qtrunc_mono; auto; lra. }
  split; [|exact R]. unfold to_uchar. cbv zeta. assert ((0 <=? Qtrunc (tail_value d)) && (Qtrunc (tail_value d) <=? 255) = true) as -> by (apply andb_true_iff; lia). reflexivity.
Qed.

Lemma curve d : (0 <= d)%Q -> exists v, ros_cost F ex ir w d = Ok v /\
  ((d == 0)%Q /\ v = lethal \/ (0 < d)%Q /\ (d <= ir)%Q /\ v = inscribed \/ (0 < d)%Q /\ (ir < d)%Q /\ v = Qtrunc (tail_value d)).
Proof.
  intros H. unfold ros_cost. destruct (Qeq_bool d 0) eqn:D0.
  - apply Qeq_bool_iff in D0. exists lethal. auto.
  - assert (0 < d)%Q. { destruct (Qle_lt_or_eq _ _ H) as [K|K]; auto. symmetry in K. apply Qeq_bool_iff in K. congruence. }
    destruct (Qle_bool d ir) eqn:D1.
    + apply Qle_bool_iff in D1. exists inscribed. split; [reflexivity|]. right; left; auto.
    + apply Qle_bool_false in D1. exists (Qtrunc (tail_value d)). split; [apply tail_cost; lra|]. right; right; auto.
Qed.
End Curve.

(** C44. For a weight that is not negative the cost is
    254 at distance 0, 253 up to the inscribed radius, then from 0 to 252,
    and never increases with the distance. *)
Theorem C44_curve : forall (E : Env) F ex, rounding rnd -> rounding (f32 F) -> exp_like ex ->
  forall ir w d, (0 <= w)%Q -> (0 <= d)%Q ->
  exists v, ros_cost F ex ir w d = Ok v /\
    ((d == 0)%Q -> v = lethal) /\
    ((0 < d)%Q -> (d <= ir)%Q -> v = inscribed) /\
    ((0 < d)%Q -> (ir < d)%Q -> 0 <= v < inscribed) /\
    forall d', (d <= d')%Q -> exists v', ros_cost F ex ir w d' = Ok v' /\ v' <= v.
Proof.
  intros E F ex RE RF X ir w d Hw Hd. destruct (curve F ex RE RF X ir w Hw d Hd) as (v & RV & C). exists v. split; [exact RV|].
  split; [|split; [|split]].
  - intros Z. destruct C as [[_ V]|[(P & _)|(P & _)]]; [exact V|lra|lra].
  - intros P L. destruct C as [[Z _]|[(_ & _ & V)|(_ & K & _)]]; [lra|exact V|lra].
  - intros P L. destruct C as [[Z _]|[(_ & K & _)|(_ & K & ->)]]; [lra|lra|].
    destruct (tail_cost F ex RE RF X ir w Hw d ltac:(lra)) as [_ R]. unfold inscribed. lia.
  - intros d' L. destruct (curve F ex RE RF X ir w Hw d' ltac:(lra)) as (v' & RV' & C'). exists v'. split; [exact RV'|].
    destruct C' as [[Z ->]|[(P' & K' & ->)|(P' & K' & ->)]].
    + destruct C as [[_ ->]|[(P & _)|(P & _)]]; [reflexivity|lra|lra].
    + destruct C as [[_ ->]|[(_ & _ & ->)|(_ & K & _)]]; [discriminate|reflexivity|lra].
    + destruct (tail_cost F ex RE RF X ir w Hw d' ltac:(lra)) as [_ R'].
      destruct C as [[_ ->]|[(_ & _ & ->)|(_ & K & ->)]]; [unfold lethal; lia|unfold inscribed; lia|].
      apply Qtrunc_mono; [apply (tail_range F ex RE RF X ir w Hw); lra|]. apply (tail_mono F ex RE RF X ir w Hw); lra.
Qed.
Print Assumptions C44_curve.

(** Both roundings to nearest, and exact arithmetic, qualify. *)
Theorem C44_rounding : (forall p, 16 <= p -> rounding (rne p)) /\ forall E, Exact E -> rounding (@rnd E).
Proof.
  split.
  - intros p Hp. split; [intros; apply rne_mono; auto; lia|]. intros k Hk. apply rne_Z; [lia|].
    assert (2 ^ 16 <= 2 ^ p) by (apply Z.pow_le_mono_r; lia). lia.
  - intros E X. split; [intros x y H; now rewrite !(X _)|]. intros k _. apply X.
Qed.
Print Assumptions C44_rounding.


(** An approximation of the exponential function. *)
Definition taylor (x : Q) : Q :=
  if Qle_bool x 0 then Qred (/ (1 - x + (1#2) * (x * x) - (1#6) * (x * x * x))) else 1.
Lemma taylor_like : exp_like taylor.
Proof.
  assert (P : forall y, (0 <= y -> 1 <= 1 + y + (1#2) * (y * y) + (1#6) * (y * y * y))%Q).
  { intros y H. assert (0 <= y * y)%Q by nra. assert (0 <= y * y * y)%Q by nra. lra. }
  assert (T : forall x, (x <= 0 -> taylor x == / (1 + - x + (1#2) * (- x * - x) + (1#6) * (- x * - x * - x)))%Q).
  { intros x H. unfold taylor. apply Qle_bool_iff in H. rewrite H, Qred_correct.
    assert ((1 - x + (1 # 2) * (x * x) - (1 # 6) * (x * x * x) == 1 + - x + (1 # 2) * (- x * - x) + (1 # 6) * (- x * - x * - x))%Q) as -> by ring. reflexivity. }
  assert (T1 : forall x, (x <= 0 -> 0 <= taylor x /\ taylor x <= 1)%Q).
  { intros x H. rewrite (T x H). specialize (P (- x)%Q ltac:(lra)). set (p := (1 + - x + _ + _)%Q) in *. clearbody p.
    split; [apply Qlt_le_weak, Qinv_lt_0_compat; lra|]. apply Qle_trans with (1 / p)%Q; [apply Qle_lteq; right; field; lra|]. apply Qle_shift_div_r; lra. }
  assert (T0 : forall x, (0 < x -> taylor x = 1)%Q).
  { intros x H. unfold taylor. destruct (Qle_bool x 0) eqn:K; [apply Qle_bool_iff in K; lra|reflexivity]. }
  split; [|split].
  - intros x y H. destruct (Qlt_le_dec 0 y) as [HY|HY].
    + rewrite (T0 y HY). destruct (Qlt_le_dec 0 x) as [HX|HX]; [rewrite (T0 x HX); lra|apply T1; auto].
    + rewrite (T x) by lra. rewrite (T y HY).
      assert (L : (1 + - y + (1#2) * (- y * - y) + (1#6) * (- y * - y * - y) <= 1 + - x + (1#2) * (- x * - x) + (1#6) * (- x * - x * - x))%Q).
      { set (a := (- y)%Q). set (b := (- x)%Q). assert (0 <= a)%Q by (unfold a; lra). assert (a <= b)%Q by (unfold a, b; lra). clearbody a b.
        assert (a * a <= b * b)%Q by nra. assert (a * a * a <= b * b * b)%Q by nra. lra. }
      pose proof (P (- y)%Q ltac:(lra)) as PY. set (p := (1 + - y + _ + _)%Q) in *. set (q := (1 + - x + _ + _)%Q) in *. clearbody p q.
      apply Qle_trans with (1 / q)%Q; [apply Qle_lteq; right; field; lra|]. apply Qle_shift_div_r; [lra|].
      apply Qle_trans with (q / p)%Q; [apply Qle_shift_div_l; lra|]. apply Qle_lteq; right; field; lra.
  - intros x. destruct (Qlt_le_dec 0 x) as [H|H]; [rewrite (T0 x H); lra|apply T1; auto].
  - intros x H. apply T1; auto.
Qed.
Example C44_case : exp_like taylor /\ rounding (@rnd (binary64 BWrap)) /\ rounding (f32 float_env) /\
  map (ros_cost (E := binary64 BWrap) float_env taylor (1#2) 2) [0; 1#2; 3#4; 1; 2; 100]%Q =
    [Ok 254; Ok 253; Ok 153; Ok 94; Ok 19; Ok 0].
Proof.
  split; [exact taylor_like|]. split; [apply (proj1 C44_rounding 53); lia|]. split; [apply (proj1 C44_rounding 24); lia|]. vm_compute. reflexivity.
Qed.

(** A negative weight makes the cost grow beyond the range of unsigned char. *)
Theorem C44_weight_refuted : exists ex ir w d, exp_like ex /\ (0 <= ir)%Q /\ (w < 0)%Q /\ (0 <= d)%Q /\
  ros_cost (E := exact_wrap) float_env ex ir w d = Fault BadCast.
Proof.
  exists (fun x => if Qle_bool x 0 then 0%Q else (2#1)%Q), (1#2)%Q, (-(1))%Q, 1%Q.
  split; [|split; [discriminate|split; [reflexivity|split; [discriminate|vm_compute; reflexivity]]]].
  split; [|split].
  - intros x y H. destruct (Qle_bool x 0) eqn:A, (Qle_bool y 0) eqn:B; try lra. apply Qle_bool_iff in B. apply Qle_bool_false in A. lra.
  - intros x. destruct (Qle_bool x 0); lra.
  - intros x H. apply Qle_bool_iff in H. rewrite H. lra.
Qed.
Print Assumptions C44_weight_refuted.

(** ** Deflation *)

Lemma deflate_run keep ls ld m : reg_ok' m -> has_layer m ls ->
  exists m', deflate keep ls ld m = Ret tt m' /\ reg_ok' m' /\ same_meta m m' /\
    layers m' = (if exists_layer m ld then layers m else layers m ++ [ld]) /\
    (forall l, l <> ld -> get m' l = get m l) /\
    (forall i v, value_at m ls i v -> value_at m' ld i (if Z_le_gt_dec (if keep : bool then inscribed else lethal) v then v else free)).
Proof.
  intros R HL. destruct HL as [src D]. destruct (r_mat _ (proj1 R) _ _ D) as (W & S1 & S2).
  destruct (add_value_ok ld NO_INFORMATION m (proj1 (proj2 R)) (proj2 (proj2 R))) as (m1 & A1 & A2 & A3 & A4 & A5 & A6).
  assert (R1 : reg_ok' m1). { pose proof (pres_add_value ld NO_INFORMATION m R) as PA. rewrite A1 in PA. exact PA. }
  assert (SZ : size m1 = size m) by (now destruct A4 as (_ & _ & _ & _ & _ & _ & -> & _)).
  unfold deflate. unfold get at 1. rewrite D. unfold bind. rewrite A1.
  set (t := if keep then INSCRIBED_OBSTACLE else LETHAL_OBSTACLE).
  set (body := fun (i : idx) (m' : cmap) => match mget src (fst i) (snd i) with
         | None => Flt OutOfBounds
         | Some cost => at_set ld i (if t <=? cost then cost else FREE_SPACE) m' end).
  set (val := fun i : idx => if t <=? cell src (fst i) (snd i) then cell src (fst i) (snd i) else FREE_SPACE).
  pose proof (mfor_flat (zseq (mcols src)) (zseq (mrows src)) body m1) as MF. change (flat_map _ _) with (grid (mrows src) (mcols src)) in MF.
  assert (HLD : has_layer m1 ld). { apply exists_has, A6. now right. }
  destruct (visit_cells (fun i l => if (l =? ld)%string then Ok (val i) else at_ m1 l i) body m1 R1 (grid (mrows src) (mcols src))) as (m2 & RUN & C & AT).
  { apply grid_NoDup. }
  { intros i m2 Hi C HA. apply grid_In in Hi. assert (RG : in_range (size m2) i). { rewrite (cells_size _ _ C), SZ. destruct Hi. split; [now rewrite <- S1|now rewrite <- S2]. }
    destruct (at_set_cells ld i (val i) m2) as (m3 & E3 & C3 & AT3); [apply C|now apply (cells_has _ _ ld C)|exact RG|].
    exists m3. split; [|split].
    - unfold body. rewrite mget_cell by (auto; apply Hi). exact E3.
    - eapply cells_trans; eauto.
    - intros l' i'. rewrite AT3. destruct (idx_eqb i' i) eqn:K; [|now rewrite andb_false_r].
      rewrite andb_true_r. destruct (l' =? ld)%string; [reflexivity|]. apply idx_eqb_eq in K. subst i'. apply HA. }
  exists m2. split; [|split; [apply C|]].
  { etransitivity; [exact MF|exact RUN]. }
  destruct C as (C1 & C2 & C3 & C4).
  split; [eapply same_meta_trans; eauto|]. split; [now rewrite C3|]. split.
  - intros l N. rewrite <- (A3 l N). apply get_ext; auto.
    + now destruct C2 as (_ & _ & _ & _ & _ & _ & -> & _).
    + intros i. rewrite AT. assert ((l =? ld)%string = false) as -> by (now apply String.eqb_neq). now destruct (existsb _ _).
  - intros i v (d & Dd & G). rewrite D in Dd. injection Dd as <-. apply at_value. rewrite AT, String.eqb_refl.
    assert (existsb (idx_eqb i) (grid (mrows src) (mcols src)) = true) as ->.
    { apply existsb_exists. exists i. split; [|now apply idx_eqb_eq]. apply grid_In. apply mget_in in G. exact G. }
    unfold val, cell. rewrite G. cbn. f_equal. unfold t. change FREE_SPACE with free.
    destruct keep; [destruct (Z_le_gt_dec inscribed v), (Z.leb_spec INSCRIBED_OBSTACLE v)|destruct (Z_le_gt_dec lethal v), (Z.leb_spec LETHAL_OBSTACLE v)];
      unfold INSCRIBED_OBSTACLE, LETHAL_OBSTACLE, inscribed, lethal in *; auto; lia.
Qed.

(** C45. Deflation keeps the costs from the threshold on and frees the others;
    it works in place and touches nothing else. *)
Theorem C45_deflate : forall keep ls ld m, reg_ok' m -> has_layer m ls ->
  exists m', deflate keep ls ld m = Ret tt m' /\
    (forall i v, value_at m ls i v ->
       value_at m' ld i (if Z_le_gt_dec (if keep : bool then inscribed else lethal) v then v else free)) /\
    (forall l, l <> ld -> get m' l = get m l) /\ same_meta m m' /\
    layers m' = (if exists_layer m ld then layers m else layers m ++ [ld]) /\ reg_ok m'.
Proof.
  intros keep ls ld m R HL. destruct (deflate_run keep ls ld m R HL) as (m' & A & B & C & D & G & H).
  exists m'. split; [exact A|]. split; [exact H|]. split; [exact G|]. split; [exact C|]. split; [exact D|apply B].
Qed.
Print Assumptions C45_deflate.

Theorem C45_missing : forall keep ls ld m, ~ has_layer m ls -> deflate keep ls ld m = Exn OutOfRange m.
Proof.
  intros keep ls ld m H. unfold deflate, get. unfold has_layer in H.
  destruct (aget (data m) ls) as [d|]; [|reflexivity]. destruct H. eauto.
Qed.
Print Assumptions C45_missing.

Example C45_case :
  let m := room 2 3 [((0, 0), 254); ((0, 1), 253); ((1, 1), 255); ((1, 2), 252)] in
  reg_ok' m /\ has_layer m "a" /\ rbind (get (after (deflate false "a" "b") m) "b") (fun d => Ok (mcoef d)) = Ok [254; 0; 0; 255; 0; 0] /\
  rbind (get (after (deflate true "a" "a") m) "a") (fun d => Ok (mcoef d)) = Ok [254; 0; 253; 255; 0; 0].
Proof.
  cbv zeta. split; [apply reg_okb_ok; vm_compute; reflexivity|]. split; [apply exists_has; vm_compute; reflexivity|]. conj_vm.
Qed.

(** C46. If the source has free and lethal cells only and the costs of obstacles
    are below the threshold of deflation, but for the obstacle itself,
    deflation restores the source. *)
Theorem C46_restore : forall (E : Env) F P o x m ls rad comp r costs li ld keep, call F P o x m ls rad comp r costs ->
  (forall i v, value_at m ls i v -> v = free \/ v = lethal) ->
  costs 0 0 <= lethal ->
  (forall a b, 0 <= a -> 0 <= b -> (a, b) <> (0, 0) -> costs a b < (if keep : bool then inscribed else lethal)) ->
  exists o' m1 m2, inflate F P ls li rad comp o m = Ret o' m1 /\ deflate keep li ld m1 = Ret tt m2 /\ get m2 ld = get m ls.
Proof.
  intros E F P o x m ls rad comp r costs li ld keep K FL C0 CN.
  destruct (call_run F P o x m ls rad comp r costs li K) as (Hr & o' & m1 & hit & RUN & O).
  pose proof (o_reg _ _ _ _ _ _ _ O) as R1. pose proof (o_meta _ _ _ _ _ _ _ O) as M1.
  assert (HL1 : has_layer m1 li) by (apply exists_has, (o_exists _ _ _ _ _ _ _ O); now right).
  destruct (deflate_run keep li ld m1 R1 HL1) as (m2 & DEF & R2 & M2 & L2 & _ & V2).
  exists o', m1, m2. split; [exact RUN|]. split; [exact DEF|].
  pose proof (k_reg _ _ _ _ _ _ _ _ _ _ K) as R. destruct (k_layer _ _ _ _ _ _ _ _ _ _ K) as [src D].
  destruct (r_mat _ (proj1 R) _ _ D) as (W & S1 & S2).
  assert (HL2 : has_layer m2 ld).
  { apply exists_has. unfold exists_layer, amem. destruct (aget (data m2) ld) eqn:G; [reflexivity|]. exfalso.
    assert (IL : In ld (layers m2)).
    { rewrite L2. destruct (exists_layer m1 ld) eqn:X; [|apply in_app_iff; right; now left]. apply exists_has in X as [d X].
      apply (r_same _ (proj1 R1)). apply BaseLemmas.aget_In. now exists d. }
    apply (r_same _ (proj1 R2)) in IL. apply aget_None in G. contradiction. }
  destruct HL2 as [d2' D2]. destruct (r_mat _ (proj1 R2) _ _ D2) as (W2 & T1 & T2).
  assert (SZ : size m2 = size m). { destruct M1 as (_ & _ & _ & _ & _ & _ & -> & _). now destruct M2 as (_ & _ & _ & _ & _ & _ & -> & _). }
  unfold get. rewrite D, D2. f_equal. apply mat_ext; auto; try congruence. intros i j Hi Hj.
  rewrite T1, SZ, <- S1 in Hi. rewrite T2, SZ, <- S2 in Hj.
  assert (V : value_at m ls (i, j) (cell src i j)). { exists src. split; [auto|]. cbn. now apply mget_cell. }
  set (v := cell src i j) in *.
  assert (G : value_at m2 ld (i, j) v).
  { assert (TH : lethal < (if keep : bool then inscribed else lethal) -> False) by (unfold lethal, inscribed; destruct keep; lia).
    assert (TF : free < (if keep : bool then inscribed else lethal)) by (unfold lethal, inscribed, free; destruct keep; lia).
    destruct (o_dec _ _ _ _ _ _ _ O (i, j)) as [[s H]|H].
    - pose proof (o_value _ _ _ _ _ _ _ O _ _ _ H V) as V1. apply V2 in V1.
      destruct (o_hit _ _ _ _ _ _ _ O _ _ H) as (_ & LS & _).
      destruct (FL _ _ V) as [EV|EV]; rewrite EV in *.
      + assert (NE : s <> (i, j)). { intros ->. apply at_value in LS, V. rewrite LS in V. discriminate. }
        assert (C1 : at_offset costs (i, j) s < (if keep : bool then inscribed else lethal)).
        { unfold at_offset. apply CN; try lia. intros Q. injection Q as Q1 Q2. apply NE. destruct s as [a b]. cbn [fst snd] in Q1, Q2. f_equal; lia. }
        assert (CL : inflated free (at_offset costs (i, j) s) < (if keep : bool then inscribed else lethal)).
        { unfold inflated. destruct (Z.eq_dec free unknown); [discriminate|]. lia. }
        destruct (Z_le_gt_dec _ (inflated free (at_offset costs (i, j) s))); [lia|exact V1].
      + pose proof (o_near _ _ _ _ _ _ _ O _ _ (i, j) H V) as N. assert (d1 (i, j) (i, j) = 0) as Z0 by (unfold d1; cbn [fst snd]; rewrite !Z.sub_diag; reflexivity). rewrite Z0 in N.
        specialize (N Hr). assert (ES : s = (i, j)). { destruct s as [a b]. unfold d2 in N. cbn [fst snd] in N.
          assert (i - a = 0 /\ j - b = 0). { set (y := i - a) in *. set (z := j - b) in *. clearbody y z. clear - N. nia. } f_equal; lia. }
        subst s. assert (at_offset costs (i, j) (i, j) = costs 0 0) as EO. { unfold at_offset. cbn [fst snd]. now rewrite !Z.sub_diag. }
        rewrite EO in V1. assert (inflated lethal (costs 0 0) = lethal) as EI. { unfold inflated. destruct (Z.eq_dec lethal unknown); [discriminate|]. lia. }
        rewrite EI in V1. destruct (Z_le_gt_dec _ lethal) in V1; [exact V1|]. exfalso. apply TH. lia.
    - pose proof (o_keep _ _ _ _ _ _ _ O _ _ H V) as V1. apply V2 in V1. destruct (FL _ _ V) as [EV|EV]; rewrite EV in *.
      + destruct (Z_le_gt_dec _ free) in V1; [lia|exact V1].
      + destruct (Z_le_gt_dec _ lethal) in V1; [exact V1|]. exfalso. apply TH. lia. }
  destruct G as (dd & Dd & G). rewrite D2 in Dd. injection Dd as <-. cbn in G. rewrite G. symmetry. now apply mget_cell.
Qed.
Print Assumptions C46_restore.

Example C46_case : let m := room 3 3 [((0, 0), 254); ((2, 1), 254)] in
  call (E := exact_wrap) float_env (list_queue true) (new_inflater _) None m "a" 1 slope 1 (cost_table float_env 1 slope) /\
  match inflate (E := exact_wrap) float_env (list_queue true) "a" "b" 1 slope (new_inflater _) m with
  | Ret _ m1 => rbind (get m1 "b") (fun d => Ok (mcoef d)) = Ok [254; 253; 253; 253; 253; 254; 0; 0; 253] /\
                get (after (deflate false "b" "c") m1) "c" = get m "a"
  | _ => False
  end.
Proof. cbv zeta. split; [apply room_call; vm_compute; congruence|]. vm_compute. auto. Qed.

(** An unknown cell in the inscribed region is lost. *)
Theorem C46_unknown_refuted : exists m i,
  call (E := exact_wrap) float_env (list_queue true) (new_inflater _) None m "a" 1 slope 1 (cost_table float_env 1 slope) /\
  value_at m "a" i unknown /\
  exists o' m1, inflate (E := exact_wrap) float_env (list_queue true) "a" "b" 1 slope (new_inflater _) m = Ret o' m1 /\
    exists u m2, deflate false "b" "c" m1 = Ret u m2 /\ value_at m2 "c" i free.
Proof.
  exists (room 1 2 [((0, 0), 254); ((0, 1), 255)]), (0, 1). split; [apply room_call; vm_compute; congruence|].
  split; [apply at_value; vm_compute; reflexivity|].
  apply (ran _ (fun m1 => exists u m2, deflate false "b" "c" m1 = Ret u m2 /\ value_at m2 "c" (0, 1) free)).
  vm_compute. eexists. eexists. split; [reflexivity|]. eexists. split; reflexivity.
Qed.
Print Assumptions C46_unknown_refuted.

(** ** The operators in general *)

(** C05. Without the source layer the operators throw out_of_range and leave the
    map as it was. *)
Theorem C05_operators : forall (E : Env) m ls, exists_layer m ls = false ->
  (forall F P (o : inflater P) ld rad comp, inflate F P ls ld rad comp o m = Exn OutOfRange m) /\
  (forall keep ld, deflate keep ls ld m = Exn OutOfRange m).
Proof.
  intros E m ls H. assert (N : ~ has_layer m ls) by (intros K; apply exists_has in K; congruence).
  split; intros; [now apply C41_missing|now apply C45_missing].
Qed.
Print Assumptions C05_operators.

Section Registry.
Context {E : Env} (F : fenv) (P : pqueue).
Let good (st : istate P) : Prop := reg_ok' (is_map st).

Lemma good_enqueue c ls ld n s : pres good (enqueue P c ls ld n s).
Proof.
  intros st G. unfold enqueue. destruct (mget (is_seen st) (fst n) (snd n)) as [b|]; [|exact I].
  destruct (b =? 0); [|exact G]. destruct (lookup c (c_dist c) n s) as [d| |]; [|exact G|exact I].
  destruct (Qlt_bool _ d); [exact G|].
  destruct (lookup c (c_cost c) n s) as [v| |], (at_ (is_map st) ls n) as [old| |]; try exact I; try exact G.
  pose proof (pres_at_set ld n (combine old v) (is_map st) G) as PA.
  destruct (at_set ld n (combine old v) (is_map st)) as [[] m'| |]; [|exact PA|exact I].
  destruct (mset (is_seen st) (fst n) (snd n) 1); [exact PA|exact I].
Qed.

Lemma good_scan c ls ld rows cols : pres good (scan P c ls ld rows cols).
Proof.
  unfold scan. apply pres_mfor. intros j. apply pres_mfor. intros i st G.
  destruct (at_ (is_map st) ls (i, j)) as [v| |]; [|exact G|exact I]. destruct (v =? LETHAL_OBSTACLE); [now apply good_enqueue|exact G].
Qed.

Lemma good_spread c ls ld sz q : pres good (spread P c ls ld sz q).
Proof. unfold spread. repeat (apply pres_bind; [|intros _]); apply pres_if; try apply good_enqueue; apply pres_ret. Qed.

Lemma good_brushfire c ls ld sz : forall f, pres good (brushfire P c ls ld sz f).
Proof.
  induction f as [|f IH]; intros st G; cbn [brushfire]; destruct (pq_pop P (is_queue st)) as [[q rest]|]; try exact G; try exact I.
  apply (pres_bind good _ _ (good_spread c ls ld sz q) (fun _ => IH)). exact G.
Qed.

Lemma good_inflate ls ld rad comp o : pres reg_ok' (inflate F P ls ld rad comp o).
Proof.
  intros m R. unfold inflate. destruct (get m ls) as [src| |] eqn:G; [|exact R|exact I].
  apply get_has in G. destruct (r_mat _ (proj1 R) _ _ G) as (W & _ & _).
  pose proof (pres_add' ld src W m R) as PA. destruct (add ld src m) as [[] m1| |]; [|exact PA|exact I].
  destruct (rbind _ _) as [c| |]; [|exact PA|exact I].
  match goal with |- post _ (match ?b with _ => _ end) => assert (PB : post good b) end.
  { apply (pres_bind good _ _ (good_scan c ls ld (mrows src) (mcols src)) (fun _ => good_brushfire c ls ld (size m) _)). exact PA. }
  match type of PB with post _ ?b => destruct b as [[] st| |]; [exact PB|exact PB|exact I] end.
Qed.
End Registry.

Lemma good_deflate keep ls ld : pres reg_ok' (deflate keep ls ld).
Proof.
  intros m R. unfold deflate. destruct (get m ls) as [src| |] eqn:G; [|exact R|exact I].
  revert m R G. intros m R _. revert m R.
  apply (pres_bind reg_ok'); [apply pres_add_value|intros _]. apply pres_mfor. intros j. apply pres_mfor. intros i m R.
  destruct (mget src i j); [now apply pres_at_set|exact I].
Qed.

(** C01. The operators keep the registry consistent, whatever their arguments
    and whether or not they throw. *)
Theorem C01_operators : forall (E : Env) m m', reg_ok' m ->
  (forall F P (o : inflater P) ls ld rad comp,
    (exists o', inflate F P ls ld rad comp o m = Ret o' m') \/ (exists e, inflate F P ls ld rad comp o m = Exn e m') -> reg_ok' m') /\
  (forall keep ls ld, deflate keep ls ld m = Ret tt m' \/ (exists e, deflate keep ls ld m = Exn e m') -> reg_ok' m').
Proof.
  intros E m m' R. split.
  - intros F P o ls ld rad comp H. pose proof (good_inflate F P ls ld rad comp o m R) as G. destruct H as [[o' H]|[e H]]; rewrite H in G; exact G.
  - intros keep ls ld H. pose proof (good_deflate keep ls ld m R) as G. destruct H as [H|[e H]]; rewrite H in G; exact G.
Qed.
Print Assumptions C01_operators.
