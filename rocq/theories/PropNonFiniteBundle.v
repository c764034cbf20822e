(** Property C99: image bundles with infinite numbers and NaN. *)
From Coq Require Import ZArith QArith Qround Qabs Ascii String List Bool Lia Lqa Sorted Permutation.
From Verif Require Import Base Mat GridMapMath GridIter CostMap Converter Bundles NonFinite NonFiniteBundle Spec ConvertSpec BaseLemmas GeoLemmas CoreProofs CoreProofs2 CoreFinal IterProofs MoveProofs AddDataProofs FloatLemmas FloatMono DoubleGeo DoubleSpec DoubleMap MessageProofs PropMessage PropGrid PropImage PropBundle PropLoad RegProofs PropNonFinite Samples.
Import ListNotations.
Open Scope Z_scope.

(** ** Calls that do not look at the geometry *)

Section Geometry.
Context {E : Env} (L : vec) (r : Q) (p : vec).

Definition placed (m : cmap) : cmap := set_geo m L r p (start m).

Definition placed_out {A} (o : out cmap A) : out cmap A :=
  match o with Ret a m => Ret a (placed m) | Exn e m => Exn e (placed m) | Flt t => Flt t end.

Definition blind {A} (f : M cmap A) : Prop := forall m, f (placed m) = placed_out (f m).

Lemma blind_bind {A B} (f : M cmap A) (k : A -> M cmap B) : blind f -> (forall a, blind (k a)) -> blind (bind f k).
Proof. intros F K m. unfold bind. rewrite F. destruct (f m) as [a m'|e m'|t]; cbn [placed_out]; auto. apply K. Qed.

Lemma blind_lift {A} (x : res A) : blind (lift x).
Proof. intros m. now destruct x. Qed.

Lemma blind_ret {A} (x : A) : blind (ret x).
Proof. intros m. reflexivity. Qed.

Lemma blind_mfor {A} (l : list A) (f : A -> M cmap unit) : (forall a, blind (f a)) -> blind (mfor l f).
Proof.
  intros F. induction l as [|a l IH]; intros m; [reflexivity|]. cbn [mfor]. rewrite F. destruct (f a m) as [u m'|e m'|t]; cbn [placed_out]; auto.
Qed.

Lemma blind_add l d : blind (add l d).
Proof.
  intros m. unfold add. change (size (placed m)) with (size m). destruct (negb _); [reflexivity|].
  change (exists_layer (placed m) l) with (exists_layer m l). destruct (exists_layer m l); reflexivity.
Qed.

Lemma blind_at_set l i v : blind (at_set l i v).
Proof.
  intros m. unfold at_set. change (data (placed m)) with (data m). destruct (aget (data m) l) as [d|]; [|reflexivity]. destruct (mset d (fst i) (snd i) v); reflexivity.
Qed.

Lemma blind_cell (C : Cv) im depth l i : blind (image_cell im depth l i).
Proof.
  intros m. unfold image_cell. destruct (_ && _); [|reflexivity]. destruct (nth_error _ _); [|reflexivity].
  destruct (px_cost _ _ _); [|reflexivity]. apply blind_at_set.
Qed.

Lemma blind_image (C : Cv) im l : blind (addLayerFromROSImage im l).
Proof.
  unfold addLayerFromROSImage. destruct (depth_of _); [|apply blind_ret]. destruct (negb _); [apply blind_ret|].
  apply blind_bind. { intros m. exact (blind_add l _ m). }
  intros _ m. set (k := fun x : cmap => if negb ((fst (size x) =? i_height im) && (snd (size x) =? i_width im)) then ret false
    else bind (lift (map_visits (size x) (start x))) (fun vs => bind (mfor vs (image_cell im z l)) (fun _ => ret true))).
  change (k (placed m) (placed m) = placed_out (k m m)). change (k (placed m)) with (k m). revert m.
  enough (K : forall x, blind (k x)) by (intros m; apply K). intros x. unfold k. destruct (negb _); [apply blind_ret|].
  apply blind_bind; [apply blind_lift|]. intros vs.
  apply blind_bind; [|intros _; apply blind_ret]. apply blind_mfor. intros i. apply blind_cell.
Qed.

Lemma blind_load (C : Cv) f ls files : blind (bind (setFrameId f) (fun _ => bind resetTimestamp (fun _ => mfor ls (add_file files)))).
Proof.
  apply blind_bind; [intros m; reflexivity|]. intros _. apply blind_bind; [intros m; reflexivity|]. intros _. apply blind_mfor.
  intros x. unfold add_file. apply blind_bind; [apply blind_image|]. intros _. apply blind_ret.
Qed.

End Geometry.

(** ** Numbers *)

Lemma float_bounds r n : (0 < r)%Q -> (r <= inject_Z (2 ^ 100))%Q -> 1 <= n <= 2 ^ 22 ->
  let s := rnd32 r in let x := rnd32 (s * rnd32 (inject_Z n)) in
  (0 < s /\ s <= inject_Z (2 ^ 101) /\ 0 < x /\ x <= 2 * (inject_Z n * s) /\ x <= inject_Z (2 ^ 125))%Q.
Proof.
  intros RP RL Hn s x.
  assert (SP : (0 < s)%Q).
  { unfold s, rnd32. destruct (rne_binade 24 r ltac:(lia) RP) as [A _]. pose proof (pow2_pos (Qlog2 r)). lra. }
  pose proof (rne_error 24 r ltac:(lia)) as E1. change (pow2 (- (24))) with (1 # 16777216)%Q in E1. fold (rnd32 r) in E1. fold s in E1.
  rewrite (Qabs_pos r) in E1 by lra. apply Qabs_Qle_condition in E1 as [_ E1].
  assert (SL : (s <= inject_Z (2 ^ 101))%Q). { change (2 ^ 101) with (2 * 2 ^ 100). rewrite inject_Z_mult. change (inject_Z 2) with 2%Q. lra. }
  assert (NX : (rnd32 (inject_Z n) == inject_Z n)%Q) by (apply rne_Z; lia).
  set (N := inject_Z n) in *.
  assert (N1 : (1 <= N)%Q) by (change 1%Q with (inject_Z 1); unfold N; rewrite <- Zle_Qle; lia).
  assert (N2 : (N <= 4194304)%Q) by (change 4194304%Q with (inject_Z (2 ^ 22)); unfold N; rewrite <- Zle_Qle; lia).
  assert (NS : (0 < N * s)%Q) by (apply Qmult_lt_0_compat; lra).
  assert (XE : (x == rne 24 (N * s))%Q). { unfold x, rnd32. apply rne_comp. fold (rnd32 N). rewrite NX. ring. }
  pose proof (rne_error 24 (N * s) ltac:(lia)) as E2. change (pow2 (- (24))) with (1 # 16777216)%Q in E2.
  rewrite (Qabs_pos (N * s)) in E2 by lra. rewrite <- XE in E2. apply Qabs_Qle_condition in E2 as [E2 E3].
  split; [exact SP|]. split; [exact SL|]. split; [lra|]. split; [lra|].
  assert (NB : (N * s <= 4194304 * inject_Z (2 ^ 101))%Q).
  { eapply Qle_trans; [apply Qmult_le_compat_r; [exact N2|lra]|]. rewrite !(Qmult_comm 4194304). apply Qmult_le_compat_r; [exact SL|lra]. }
  assert (inject_Z (2 ^ 125) == 4 * (4194304 * inject_Z (2 ^ 101)))%Q as -> by reflexivity. lra.
Qed.

Lemma fin_below top q : (Qabs (rnd32 q) < top)%Q -> nrnd (E := binary32) top q = Fin (rnd32 q).
Proof. intros H. unfold nrnd. cbn [rnd binary32]. destruct (Qle_bool top _) eqn:K; [|reflexivity]. apply Qle_bool_iff in K. lra. Qed.

Lemma read_float_ok r : (0 < r)%Q -> (r <= inject_Z (2 ^ 100))%Q -> read_float (Fin r) = Ok (Fin (rnd32 r)).
Proof.
  intros RP RL. destruct (float_bounds r 1 RP RL ltac:(lia)) as (S0 & S1 & _). unfold read_float.
  destruct (Qle_bool top32 _) eqn:K; [|reflexivity]. apply Qle_bool_iff in K. rewrite Qabs_pos in K by lra.
  assert (inject_Z (2 ^ 101) < top32)%Q by reflexivity. lra.
Qed.

Lemma float_length_ok r n : (0 < r)%Q -> (r <= inject_Z (2 ^ 100))%Q -> 1 <= n <= 2 ^ 22 ->
  float_length (Fin (rnd32 r)) n = Fin (rnd32 (rnd32 r * rnd32 (inject_Z n))).
Proof.
  intros RP RL Hn. destruct (float_bounds r n RP RL Hn) as (_ & _ & X0 & _ & X1). unfold float_length. cbn [nmul]. apply fin_below.
  rewrite Qabs_pos by lra. assert (inject_Z (2 ^ 125) < top32)%Q by reflexivity. lra.
Qed.

Lemma read_double_ok top a : (forall q, a = Fin q -> (Qabs q < top)%Q) -> read_double top a = Ok a.
Proof.
  intros H. destruct a as [q|s|]; [|reflexivity|reflexivity]. cbn. destruct (Qle_bool top (Qabs q)) eqn:K; [|reflexivity].
  apply Qle_bool_iff in K. specialize (H q eq_refl). lra.
Qed.

(** ** Specification *)

(** The yaml file with another centre. *)
Definition centred (y : yaml) (cx cy : num) : xyaml :=
  XYaml (y_frame y) (Some cx) (Some cy) (option_map Fin (y_resn y)) (y_nx y) (y_ny y) (y_layers y).

(** As a double a finite number is below the overflow threshold. *)
Definition readable (top : Q) (a : num) : Prop := forall q, a = Fin q -> (Qabs q < top)%Q.

(** Whatever the centre: the map is that of the same file with an ordinary centre,
    except for its position. No position is inside if the centre is not finite. *)
Theorem C99_centre : forall (E : Env) (C : Cv), real_or_double E -> gray_range C -> forall top b X r nx ny cx cy,
  complete (b_yaml b) -> y_resn (b_yaml b) = Some r -> y_nx (b_yaml b) = Some nx -> y_ny (b_yaml b) = Some ny ->
  (0 < r)%Q -> (r <= inject_Z (2 ^ 100))%Q -> 1 <= nx <= 2 ^ 22 -> 1 <= ny <= 2 ^ 22 -> (inject_Z (2 ^ 130) <= top)%Q ->
  readable top cx -> readable top cy -> reg_ok' (xcells X) -> (forall f p, aget (b_files b) f = Some p -> png_ok p) ->
  exists m' X', fromImageBundle (Some b) (xcells X) = Ret tt m' /\
    xload top strict_int (centred (b_yaml b) cx cy) (b_files b) X = Ret tt X' /\
    xpos X' = (cx, cy) /\ is_map (XMap (xcells X') (xlen X') (xres X') (fin2 (pos m'))) m' /\
    (~ finite2 (cx, cy) -> forall p, xisInside top X' p = false).
Proof.
  intros E C RD GR top b X r nx ny cx cy K HR HX HY RP RL N0 N1 HT RX RY R0 PO.
  destruct (y_frame (b_yaml b)) as [fr|] eqn:HF; [|exfalso; apply (k_frame _ K); exact HF].
  destruct (y_cx (b_yaml b)) as [bx|] eqn:HCX; [|exfalso; apply (k_cx _ K); exact HCX].
  destruct (y_cy (b_yaml b)) as [by_|] eqn:HCY; [|exfalso; apply (k_cy _ K); exact HCY].
  destruct (C72_loaded E C RD GR b (xcells X) fr bx by_ r nx ny K HF HCX HCY HR HX HY RP N0 N1 R0 PO) as (m' & _ & LD & _).
  pose proof LD as LD0. unfold fromImageBundle in LD. rewrite HF, HCX, HCY, HR, HX, HY in LD.
  destruct (yaml_layers_first (y_layers (b_yaml b)) []) as (ls & YL & _ & _); [constructor|apply K|].
  unfold bind at 1 in LD. rewrite YL in LD. cbn [lift] in LD. unfold bind at 1 in LD.
  destruct (float_count E RD r nx RP N0) as [P0 C0]. destruct (float_count E RD r ny RP N1) as [P1 C1].
  destruct (float_bounds r nx RP RL N0) as (S0 & S1 & X0 & X0' & _). destruct (float_bounds r ny RP RL N1) as (_ & _ & X1 & X1' & _).
  set (s := rnd32 r) in *. set (x := rnd32 (s * rnd32 (inject_Z nx))) in *. set (y := rnd32 (s * rnd32 (inject_Z ny))) in *.
  rewrite (setGeometry_any (x, y) s (bx, by_) (xcells X)) in LD by assumption.
  assert (CO : cells_of (x, y) s = (nx, ny)) by (unfold cells_of; cbn [fst snd]; now rewrite C0, C1).
  cbv zeta in LD. rewrite CO in LD. cbn [fst snd] in LD.
  set (c := CMap (frame (xcells X)) (stamp (xcells X)) (map (fun kv => (fst kv, mconst nx ny NO_INFORMATION)) (data (xcells X)))
              (layers (xcells X)) (basic (xcells X)) (len (xcells X)) (resn (xcells X)) (pos (xcells X)) (nx, ny) (0, 0)).
  match type of LD with ?f (CMap _ _ _ _ _ ?l _ ?p _ _) = _ =>
    pose proof (blind_load l s p C fr ls (b_files b) c) as BL; change (f (placed l s p c) = Ret tt m') in LD; set (PL := l) in * end.
  rewrite BL in LD.
  destruct (bind (setFrameId fr) _ c) as [[] m''|e m''|t] eqn:RUN; cbn [placed_out] in LD; try discriminate. injection LD as <-.
  exists (placed PL s (bx, by_) m''), (XMap m'' (fin2 PL) (Fin s) (cx, cy)). split; [exact LD0|].
  pose proof (near_real E RD) as N.
  assert (TT : (inject_Z (2 ^ 130) == 128 * (4194304 * inject_Z (2 ^ 101)))%Q) by reflexivity.
  assert (BIG : forall n, 1 <= n <= 2 ^ 22 -> (Qabs (inject_Z n) <= 4194304)%Q /\ (0 <= inject_Z n)%Q).
  { intros n Hn. assert (0 <= inject_Z n)%Q by (change 0%Q with (inject_Z 0); rewrite <- Zle_Qle; lia). split; [|assumption].
    rewrite Qabs_pos by assumption. change 4194304%Q with (inject_Z (2 ^ 22)). rewrite <- Zle_Qle; lia. }
  assert (DV : forall z n, 1 <= n <= 2 ^ 22 -> (0 < z)%Q -> (z <= 2 * (inject_Z n * s))%Q -> Qround_away (fdiv z s) = n ->
     strict_int (nround (ndiv top (Fin z) (Fin s))) = Ok n).
  { intros z n Hn ZP ZL CN. destruct (BIG n Hn) as [B1 B2]. rewrite Qabs_pos in B1 by assumption. cbn [ndiv].
    assert (Z0 : Qeq_bool s 0 = false). { destruct (Qeq_bool s 0) eqn:J; auto. apply Qeq_bool_iff in J. lra. } rewrite Z0.
    assert (QP : (0 < z / s)%Q) by (apply Qlt_shift_div_l; lra).
    assert (QL : (z / s <= 8388608)%Q). { apply Qle_shift_div_r; [exact S0|]. eapply Qle_trans; [exact ZL|]. assert (inject_Z n * s <= 4194304 * s)%Q by (apply Qmult_le_compat_r; lra). lra. }
    rewrite (nrnd_small N top _ 8388608); [|rewrite Qabs_pos by lra; exact QL|assert (2 * 8388608 < inject_Z (2 ^ 130))%Q by reflexivity; lra].
    cbn [nround]. fold (fdiv z s). rewrite CN. apply strict_fin; [apply BaseLemmas.Qtrunc_Z|lia]. }
  assert (LN : forall n, 1 <= n <= 2 ^ 22 -> nmul top (Fin (inject_Z n)) (Fin s) = Fin (fmul (inject_Z n) s)).
  { intros n Hn. destruct (BIG n Hn) as [B1 B2]. rewrite Qabs_pos in B1 by assumption. cbn [nmul].
    assert (NB : (inject_Z n * s <= 4194304 * inject_Z (2 ^ 101))%Q).
    { eapply Qle_trans; [apply Qmult_le_compat_r; [exact B1|lra]|]. rewrite !(Qmult_comm 4194304). apply Qmult_le_compat_r; [exact S1|lra]. }
    apply (nrnd_small N top _ (4194304 * inject_Z (2 ^ 101))).
    - rewrite Qabs_pos; [exact NB|]. apply Qmult_le_0_compat; lra.
    - assert (0 < 4194304 * inject_Z (2 ^ 101))%Q by reflexivity. lra. }
  split; [|split; [reflexivity|split]].
  - unfold xload, centred. cbn [xy_frame xy_cx xy_cy xy_resn xy_nx xy_ny xy_layers]. rewrite HF, HR, HX, HY. cbn [option_map].
    unfold bind at 1. rewrite (read_float_ok r RP RL). cbn [lift]. unfold bind at 1. rewrite (read_double_ok top cx RX). cbn [lift].
    unfold bind at 1. rewrite (read_double_ok top cy RY). cbn [lift]. unfold bind at 1. rewrite YL. cbn [lift].
    fold s. unfold bind at 1. pose proof (float_length_ok r nx RP RL N0) as F0. pose proof (float_length_ok r ny RP RL N1) as F1.
    fold s in F0, F1. fold x in F0. fold y in F1. rewrite F0, F1.
    unfold xsetGeometry. cbn [fst snd].
    assert (POSB : forall q, (0 < q)%Q -> nlt (Fin 0) (Fin q) = true).
    { intros q Q. cbn [nlt nle]. destruct (Qle_bool q 0) eqn:J; [apply Qle_bool_iff in J; lra|reflexivity]. }
    rewrite (POSB x X0), (POSB y X1), (POSB s S0). cbn [andb negb].
    rewrite (DV x nx N0 X0 X0' C0), (DV y ny N1 X1 X1' C1). rewrite (LN nx N0), (LN ny N1).
    unfold bind at 1, resize, clearAll, modify. cbn [fst snd]. unfold set_start, set_size, set_data.
    cbn [frame stamp data layers basic len resn pos size start]. rewrite map_map. cbn [fst snd mrows mcols mconst].
    unfold on_cells. cbn [xcells xlen xres xpos].
    match goal with |- context [bind (setFrameId fr) ?k ?z] => change z with c end. rewrite RUN. reflexivity.
  - repeat split; reflexivity.
  - intros NF q. apply (C95_outside E top _ q); [|now right]. split; [split; cbn; eexists; reflexivity|cbn; eexists; reflexivity].
Qed.
Print Assumptions C99_centre.

(** ** Resolutions *)

(** Every key is there, and every layer has a name and a file. *)
Definition says (y : xyaml) (cx cy r : num) (nx ny : Z) : Prop :=
  xy_frame y <> None /\ xy_cx y = Some cx /\ xy_cy y = Some cy /\ xy_resn y = Some r /\ xy_nx y = Some nx /\ xy_ny y = Some ny /\
  forall e, In e (xy_layers y) -> fst e <> None /\ snd e <> None.

Lemma count_pos n : 1 <= n -> (0 < rnd32 (inject_Z n))%Q.
Proof.
  intros H. assert (P : (0 < inject_Z n)%Q) by (change 0%Q with (inject_Z 0); rewrite <- Zlt_Qlt; lia).
  unfold rnd32. destruct (rne_binade 24 _ ltac:(lia) P) as [A _]. pose proof (pow2_pos (Qlog2 (inject_Z n))). lra.
Qed.

Lemma inf_length n : 1 <= n -> float_length (Inf false) n = Inf false.
Proof.
  intros H. pose proof (count_pos n H) as P. unfold float_length. cbn [nmul].
  destruct (Qeq_bool (rnd32 (inject_Z n)) 0) eqn:K; [apply Qeq_bool_iff in K; lra|].
  unfold negative, Qlt_bool. destruct (Qle_bool 0 (rnd32 (inject_Z n))) eqn:J; [reflexivity|].
  apply not_true_iff_false in J. exfalso. apply J. apply Qle_bool_iff. lra.
Qed.

Lemma nlt_pos q : (0 < q)%Q -> nlt (Fin 0) (Fin q) = true.
Proof. intros Q. cbn [nlt nle]. destruct (Qle_bool q 0) eqn:J; [apply Qle_bool_iff in J; lra|reflexivity]. Qed.

Lemma long_length s n : (0 < s)%Q -> 1 <= n -> nlt (Fin 0) (float_length (Fin s) n) = true /\
  ((top32 <= s * rnd32 (inject_Z n))%Q -> float_length (Fin s) n = Inf false).
Proof.
  intros S H. pose proof (count_pos n H) as P. unfold float_length. cbn [nmul]. unfold nrnd. cbn [rnd binary32].
  assert (PP : (0 < s * rnd32 (inject_Z n))%Q) by (apply Qmult_lt_0_compat; assumption).
  assert (XP : (0 < rnd32 (s * rnd32 (inject_Z n)))%Q).
  { unfold rnd32 at 1. destruct (rne_binade 24 _ ltac:(lia) PP) as [A _]. pose proof (pow2_pos (Qlog2 (s * rnd32 (inject_Z n)))). lra. }
  assert (NG : negative (rnd32 (s * rnd32 (inject_Z n))) = false).
  { unfold negative, Qlt_bool. destruct (Qle_bool 0 (rnd32 (s * rnd32 (inject_Z n)))) eqn:J; [reflexivity|].
    apply not_true_iff_false in J. exfalso. apply J. apply Qle_bool_iff. lra. }
  split.
  - destruct (Qle_bool top32 _); [now rewrite NG|]. now apply nlt_pos.
  - intros T. pose proof (rne_mono 24 _ _ ltac:(lia) T) as MO. change (rne 24 top32) with top32 in MO.
    destruct (Qle_bool top32 (Qabs (rnd32 (s * rnd32 (inject_Z n))))) eqn:K; [now rewrite NG|].
    apply not_true_iff_false in K. exfalso. apply K. apply Qle_bool_iff. rewrite Qabs_pos by lra. exact MO.
Qed.

(** A resolution of NaN or minus infinity fails the assertion of setGeometry, and so
    does an infinite one with no cells. With cells an infinite resolution is undefined,
    and so is a finite one whose product with a number of cells is too large for a
    float. One that is itself too large for a float is refused. *)
Theorem C99_resolution : forall (E : Env) (C : Cv) top y files X cx cy r nx ny,
  says y cx cy r nx ny -> readable top cx -> readable top cy -> 0 <= nx -> 0 <= ny ->
  (r = NaN \/ r = Inf true -> xload top strict_int y files X = Flt AssertFailed) /\
  (r = Inf false -> nx = 0 \/ ny = 0 -> xload top strict_int y files X = Flt AssertFailed) /\
  (r = Inf false -> 1 <= nx -> 1 <= ny -> xload top strict_int y files X = Flt BadCast) /\
  (forall q, r = Fin q -> (0 < q)%Q -> (rne 24 q < inject_Z (2 ^ 128))%Q -> 1 <= nx -> 1 <= ny ->
     (inject_Z (2 ^ 128) <= rne 24 q * rne 24 (inject_Z nx) \/ inject_Z (2 ^ 128) <= rne 24 q * rne 24 (inject_Z ny))%Q ->
     xload top strict_int y files X = Flt BadCast) /\
  (forall q, r = Fin q -> (inject_Z (2 ^ 128) <= Qabs (rne 24 q))%Q -> xload top strict_int y files X = Exn BadFile X).
Proof.
  intros E C top y files X cx cy r nx ny (HF & HCX & HCY & HR & HX & HY & HL) RX RY NX NY.
  destruct (yaml_layers_first (xy_layers y) []) as (ls & YL & _ & _); [constructor|exact HL|].
  destruct (xy_frame y) as [fr|] eqn:FR; [|congruence].
  assert (K : forall s, read_float r = Ok s ->
    xload top strict_int y files X =
    match xsetGeometry top strict_int (float_length s nx, float_length s ny) s (cx, cy) X with
    | Ret _ X1 => on_cells (bind (setFrameId fr) (fun _ => bind resetTimestamp (fun _ => mfor ls (add_file files)))) X1
    | Exn e X1 => Exn e X1
    | Flt t => Flt t
    end).
  { intros s RF. unfold xload. rewrite FR, HCX, HCY, HR, HX, HY. unfold bind at 1. rewrite RF. cbn [lift].
    unfold bind at 1. rewrite (read_double_ok top cx RX). cbn [lift]. unfold bind at 1. rewrite (read_double_ok top cy RY). cbn [lift].
    unfold bind at 1. rewrite YL. cbn [lift]. reflexivity. }
  change (inject_Z (2 ^ 128)) with top32.
  split; [|split; [|split; [|split]]].
  - intros H. rewrite (K r) by (destruct H as [->| ->]; reflexivity).
    assert (A : xsetGeometry top strict_int (float_length r nx, float_length r ny) r (cx, cy) X = Flt AssertFailed).
    { unfold xsetGeometry. assert (nlt (Fin 0) r = false) as -> by (destruct H as [->| ->]; reflexivity). now rewrite andb_false_r. }
    now rewrite A.
  - intros -> H. rewrite (K (Inf false)) by reflexivity.
    assert (A : xsetGeometry top strict_int (float_length (Inf false) nx, float_length (Inf false) ny) (Inf false) (cx, cy) X = Flt AssertFailed).
    { apply C95_geometry. cbn [fst snd]. destruct H as [->| ->]; [left|right; left]; reflexivity. }
    now rewrite A.
  - intros -> H0 H1. rewrite (K (Inf false)) by reflexivity. rewrite (inf_length nx H0), (inf_length ny H1). reflexivity.
  - intros q -> QP QT H0 H1 H. change (rne 24 q) with (rnd32 q) in *. change (rne 24 (inject_Z nx)) with (rnd32 (inject_Z nx)) in *.
    change (rne 24 (inject_Z ny)) with (rnd32 (inject_Z ny)) in *.
    assert (SP : (0 < rnd32 q)%Q). { unfold rnd32. destruct (rne_binade 24 _ ltac:(lia) QP) as [A _]. pose proof (pow2_pos (Qlog2 q)). lra. }
    rewrite (K (Fin (rnd32 q))).
    + destruct (long_length (rnd32 q) nx SP H0) as [A0 B0]. destruct (long_length (rnd32 q) ny SP H1) as [A1 B1].
      assert (A : xsetGeometry top strict_int (float_length (Fin (rnd32 q)) nx, float_length (Fin (rnd32 q)) ny) (Fin (rnd32 q)) (cx, cy) X = Flt BadCast).
      { apply C95_geometry; cbn [fst snd]; [exact A0|exact A1|now exists (rnd32 q)|now apply nlt_pos|].
        intros [[a F0] [b F1]]. cbn [fst snd] in F0, F1. destruct H as [H|H]; [rewrite (B0 H) in F0|rewrite (B1 H) in F1]; discriminate. }
      now rewrite A.
    + unfold read_float. destruct (Qle_bool top32 _) eqn:J; [|reflexivity]. apply Qle_bool_iff in J. rewrite Qabs_pos in J by lra. lra.
  - intros q -> H. unfold xload. rewrite FR, HCX, HCY, HR, HX, HY. unfold bind at 1, read_float. change (rne 24 q) with (rnd32 q) in H.
    assert (Qle_bool top32 (Qabs (rnd32 q)) = true) as -> by now apply Qle_bool_iff. reflexivity.
Qed.
Print Assumptions C99_resolution.

(** A coordinate of the centre too large for a double is refused, whatever the resolution. *)
Theorem C99_range : forall (E : Env) (C : Cv) top y files X cx cy r nx ny q,
  says y cx cy r nx ny -> cx = Fin q \/ cy = Fin q -> (top <= Qabs q)%Q ->
  xload top strict_int y files X = Exn BadFile X.
Proof.
  intros E C top y files X cx cy r nx ny q (HF & HCX & HCY & HR & HX & HY & _) H T.
  apply Qle_bool_iff in T. destruct (xy_frame y) as [fr|] eqn:FR; [|congruence].
  unfold xload. rewrite FR, HCX, HCY, HR, HX, HY. unfold bind at 1.
  assert (R : (exists s, read_float r = Ok s) \/ read_float r = Throw BadFile).
  { unfold read_float. destruct r as [a| |]; [destruct (Qle_bool top32 _)|..]; eauto. }
  destruct R as [[s R]|R]; rewrite R; [|reflexivity]. cbn [lift]. unfold bind at 1.
  destruct H as [->| ->].
  - unfold read_double at 1. now rewrite T.
  - assert (D : read_double top cx = Ok cx \/ read_double top cx = Throw BadFile).
    { clear. destruct cx as [a| |]; cbn [read_double]; [destruct (Qle_bool top (Qabs a))|..]; auto. }
    destruct D as [D|D]; rewrite D; [|reflexivity]. cbn [lift]. unfold bind at 1, read_double at 1. now rewrite T.
Qed.
Print Assumptions C99_range.

(** A missing key is reported before any number is looked at. *)
Theorem C99_missing : forall (E : Env) (C : Cv) top y files X,
  xy_frame y = None \/ xy_cx y = None \/ xy_cy y = None \/ xy_resn y = None \/ xy_nx y = None \/ xy_ny y = None ->
  xload top strict_int y files X = Exn LogicError X.
Proof.
  intros E C top y files X H. unfold xload.
  destruct (xy_frame y); [|reflexivity]. destruct (xy_cx y); [|reflexivity]. destruct (xy_cy y); [|reflexivity].
  destruct (xy_resn y); [|reflexivity]. destruct (xy_nx y); [|reflexivity]. destruct (xy_ny y); [|reflexivity].
  repeat destruct H as [H|H]; discriminate.
Qed.
Print Assumptions C99_missing.

(** The file of C72 with centre (.nan, 2), and with other resolutions. *)
Definition huge : Q := inject_Z (2 ^ 1024).
Definition blank : xmap := XMap (new_map ["z"%string]) (Fin 0, Fin 0) (Fin 0) (Fin 0, Fin 0).
Definition load99 (y : xyaml) : out xmap unit := xload (E := binary64 BWrap) (C := opencv true) huge strict_int y (b_files hand) blank.
Definition with_resn (r : num) : xyaml :=
  let y := b_yaml hand in XYaml (y_frame y) (Some (Fin 1)) (Some (Fin 2)) (Some r) (y_nx y) (y_ny y) (y_layers y).

Example C99_case :
  match load99 (centred (b_yaml hand) NaN (Fin 2)) with
  | Ret _ X => xpos X = (NaN, Fin 2) /\ layers (xcells X) = ["z"; "a"; "b"; "c"; "d"]%string /\ size (xcells X) = (2, 1) /\
      map (fun l => (at_ (xcells X) l (0, 0), at_ (xcells X) l (1, 0))) (layers (xcells X)) =
        [(Ok 255, Ok 255); (Ok 255, Ok 127); (Ok 254, Ok 0); (Ok 255, Ok 255); (Ok 255, Ok 255)] /\
      xisInside (E := binary64 BWrap) huge X (Fin 1, Fin 2) = false
  | _ => False
  end /\
  match load99 (centred (b_yaml hand) (Fin 1) (Fin 2)) with
  | Ret _ X => xisInside (E := binary64 BWrap) huge X (Fin 1, Fin 2) = true
  | _ => False
  end /\
  load99 (with_resn NaN) = Flt AssertFailed /\ load99 (with_resn (Inf false)) = Flt BadCast /\
  load99 (with_resn (Fin (inject_Z (2 ^ 127)))) = Flt BadCast /\ load99 (with_resn (Fin (inject_Z (10 ^ 39)))) = Exn BadFile blank /\
  load99 (XYaml None (Some NaN) (Some NaN) (Some NaN) (Some 1) (Some 1) []) = Exn LogicError blank.
Proof. conj_vm. Qed.
