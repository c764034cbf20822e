(** Properties C53 and C54: layers from images. *)
From Coq Require Import ZArith QArith Qround Qabs Qfield String List Bool Lia Lqa.
From Coq Require Import ZifyBool.
From Verif Require Import Base Mat GridMapMath GridIter CostMap Converter Spec ConvertSpec BaseLemmas GeoLemmas CoreProofs CoreProofs2 CoreFinal IterProofs MoveProofs AddDataProofs FloatLemmas FloatMono MessageProofs Samples.
Import ListNotations.
Open Scope Z_scope.

(** ** Specification *)

(** Encodings that can be loaded. *)
Definition eight_bit : list string := ["bgra8"; "bgr8"; "mono8"]%string.
Definition sixteen_bit : list string := ["bgra16"; "bgr16"; "mono16"]%string.

(** Colour conversion gives values in range. *)
Definition gray_range (C : Cv) : Prop :=
  (forall b g r, 0 <= b < 256 -> 0 <= g < 256 -> 0 <= r < 256 -> 0 <= gray8 b g r < 256) /\
  (forall b g r, 0 <= b < 65536 -> 0 <= g < 65536 -> 0 <= r < 65536 -> 0 <= gray16 b g r < 65536).

(** All samples of a pixel are below d. *)
Definition px_range (d : Z) (p : px) : Prop :=
  0 <= p_b p < d /\ 0 <= p_g p < d /\ 0 <= p_r p < d /\ 0 <= p_a p < d.

(** A well-formed image: as many pixels as cells, each within its range. *)
Definition image_ok (im : image) : Prop :=
  Z.of_nat (length (i_px im)) = i_height im * i_width im /\
  forall p, In p (i_px im) -> px_range (if smem (i_enc im) eight_bit then 256 else 65536) p.

(** The pixel in row i0 and column i1. *)
Definition pixel (im : image) (i : idx) (p : px) : Prop :=
  nth_error (i_px im) (Z.to_nat (fst i * i_width im + snd i)) = Some p.

(** A 16-bit number with its bytes swapped. *)
Definition swapped (v : Z) : Z := 256 * (v mod 256) + v / 256.
Definition as_read {C : Cv} (v : Z) : Z := if little then swapped v else v.

(** The cost of a brightness out of d: 254 for black, dropping linearly. *)
Definition darkness (d gray : Z) : Z := 254 * (d - gray) / d.

(** The cost of a pixel. *)
Definition pixel_cost {C : Cv} (enc : string) (p : px) : Z :=
  (if String.eqb enc "bgra8"%string then if p_a p <? 128 then unknown else darkness 256 (gray8 (p_b p) (p_g p) (p_r p))
   else if String.eqb enc "bgr8"%string then darkness 256 (gray8 (p_b p) (p_g p) (p_r p))
   else if String.eqb enc "mono8"%string then darkness 256 (p_b p)
   else if String.eqb enc "bgra16"%string then if as_read (p_a p) <? 32768 then unknown else darkness 65536 (as_read (gray16 (p_b p) (p_g p) (p_r p)))
   else if String.eqb enc "bgr16"%string then darkness 65536 (as_read (gray16 (p_b p) (p_g p) (p_r p)))
   else darkness 65536 (as_read (p_b p))).

(** [m'] has layer l, at the end if it is new, and the rest of [m] unchanged. *)
Definition only_layer (l : string) (m m' : cmap) : Prop :=
  same_meta m m' /\ layers m' = (if smem l (layers m) then layers m else layers m ++ [l]) /\
  forall l' i v, l' <> l -> (value_at m' l' i v <-> value_at m l' i v).

(** ** The value of a pixel *)

Lemma rod_dyadic E (X : real_or_double E) q k e : Z.abs k < 2 ^ 53 -> (q == inject_Z k * pow2 e)%Q -> (rnd q == q)%Q.
Proof.
  intros H Q. destruct X as [X|[p ->]]; [apply X|]. cbn [rnd binary64]. now apply (rne_dyadic 53 q k e).
Qed.

Lemma image_value_ok E (X : real_or_double E) s gray : 0 <= s <= 16 -> 0 <= gray <= 2 ^ s ->
  image_value (2 ^ s) gray = darkness (2 ^ s) gray.
Proof.
  intros Hs Hg. assert (P : 0 < 2 ^ s) by (apply Z.pow_pos_nonneg; lia).
  assert (B : 2 ^ s <= 65536) by (change 65536 with (2 ^ 16); apply Z.pow_le_mono_r; lia).
  assert (PQ : (0 < inject_Z (2 ^ s))%Q) by now apply inject_Z_pos.
  assert (PO : (pow2 (- s) == / inject_Z (2 ^ s))%Q) by (rewrite pow2_opp, pow2_Z by lia; reflexivity).
  unfold image_value, fmul, fsub, fdiv.
  assert (D : (rnd (inject_Z gray / inject_Z (2 ^ s)) == inject_Z gray / inject_Z (2 ^ s))%Q).
  { apply (rod_dyadic E X _ gray (- s)); [lia|]. rewrite PO. reflexivity. }
  assert (S : (1 - rnd (inject_Z gray / inject_Z (2 ^ s)) == inject_Z (2 ^ s - gray) * pow2 (- s))%Q).
  { rewrite D, PO. unfold Z.sub. rewrite inject_Z_plus, inject_Z_opp. field. lra. }
  assert (S' : (rnd (1 - rnd (inject_Z gray / inject_Z (2 ^ s))) == inject_Z (2 ^ s - gray) * pow2 (- s))%Q).
  { rewrite <- S. apply (rod_dyadic E X _ (2 ^ s - gray) (- s)); [lia|exact S]. }
  assert (M : (254 * rnd (1 - rnd (inject_Z gray / inject_Z (2 ^ s))) == inject_Z (254 * (2 ^ s - gray)) * pow2 (- s))%Q).
  { rewrite S', inject_Z_mult. change (inject_Z 254) with 254%Q. ring. }
  rewrite (rod_dyadic E X _ (254 * (2 ^ s - gray)) (- s)); [|lia|exact M].
  assert (N : (254 * rnd (1 - rnd (inject_Z gray / inject_Z (2 ^ s))) == inject_Z (254 * (2 ^ s - gray)) / inject_Z (2 ^ s))%Q).
  { rewrite M, PO. reflexivity. }
  rewrite N. clear - P Hg. unfold darkness. rewrite Qtrunc_nonneg.
  - rewrite <- (Z2Pos.id (2 ^ s)) at 2 by lia. rewrite <- Qmake_Qdiv. cbn [Qfloor]. now rewrite Z2Pos.id by lia.
  - apply Qle_shift_div_l; [now apply inject_Z_pos|]. rewrite Qmult_0_l. change 0%Q with (inject_Z 0). rewrite <- Zle_Qle. nia.
Qed.

Lemma read16_ok (C : Cv) v : 0 <= v < 65536 -> read16 v = as_read v.
Proof.
  intros H. unfold read16, bytes16, as_read, swapped. destruct little; cbn [fst snd]; [ring|].
  pose proof (Z.div_mod v 256). lia.
Qed.

Lemma as_read_range (C : Cv) v : 0 <= v < 65536 -> 0 <= as_read v < 65536.
Proof.
  intros H. unfold as_read, swapped. destruct little; [|lia]. pose proof (Z.mod_pos_bound v 256).
  assert (0 <= v / 256 < 256) by (split; [apply Z.div_pos; lia|apply Z.div_lt_upper_bound; lia]). lia.
Qed.

Lemma enc_cases enc : In enc (eight_bit ++ sixteen_bit) ->
  (enc = "bgra8" \/ enc = "bgr8" \/ enc = "mono8" \/ enc = "bgra16" \/ enc = "bgr16" \/ enc = "mono16")%string.
Proof. cbn. intuition auto. Qed.

(** The depth found for a supported encoding, and the cost of a pixel. *)
Lemma px_cost_ok (E : Env) (C : Cv) (X : real_or_double E) (R : gray_range C) enc :
  In enc (eight_bit ++ sixteen_bit) -> exists depth, depth_of enc = Some depth /\
    forall p, px_range (if smem enc eight_bit then 256 else 65536) p ->
    match px_cost enc depth p with Some v => v | None => unknown end = pixel_cost enc p.
Proof.
  intros HE. destruct R as [R8 R16]. apply enc_cases in HE.
  assert (V8 : forall g, 0 <= g < 256 -> image_value 256 g = darkness 256 g) by (intros; apply (image_value_ok E X 8); lia).
  assert (V16 : forall g, 0 <= g < 65536 -> image_value 65536 g = darkness 65536 g) by (intros; apply (image_value_ok E X 16); lia).
  destruct HE as [->|[->|[->|[->|[->| ->]]]]]; eexists; (split; [reflexivity|]);
    intros p (B & G & D & A); cbn in B, G, D, A; unfold px_cost, pixel_cost, mono; cbn [String.eqb Ascii.eqb Bool.eqb andb orb BGRA8 BGR8 MONO8 BGRA16 BGR16 MONO16].
  - change (256 / 2) with 128. destruct (p_a p <? 128); auto.
  - change (256 =? 256) with true. cbn iota. apply V8. auto.
  - change (256 =? 256) with true. cbn iota. apply V8. auto.
  - change (65536 / 2) with 32768. rewrite (read16_ok C) by auto. destruct (_ <? _); auto. change (65536 =? 256) with false. cbn iota.
    rewrite (read16_ok C) by auto. apply V16, as_read_range. auto.
  - change (65536 =? 256) with false. cbn iota. rewrite (read16_ok C) by auto. apply V16, as_read_range. auto.
  - change (65536 =? 256) with false. cbn iota. rewrite (read16_ok C) by auto. apply V16, as_read_range. auto.
Qed.

(** ** C53 *)

Theorem C53_rejected : forall (E : Env) (C : Cv) im l m,
  ~ In (i_enc im) (eight_bit ++ sixteen_bit) \/ i_sound im = false ->
  addLayerFromROSImage im l m = Ret false m.
Proof.
  intros E C im l m H. unfold addLayerFromROSImage. destruct (depth_of (i_enc im)) as [d|] eqn:D; [|reflexivity].
  destruct H as [H|H]; [|now rewrite H].
  exfalso. apply H. unfold depth_of, BGRA8, BGR8, MONO8, BGRA16, BGR16, MONO16 in D. cbn [In app eight_bit sixteen_bit].
  repeat match type of D with context [String.eqb ?a ?b] => destruct (String.eqb_spec a b) as [->|]; [tauto|] end. discriminate.
Qed.
Print Assumptions C53_rejected.

Lemma added_layer (E : Env) l m : reg_ok' m -> exists m1, add_value l NO_INFORMATION m = Ret tt m1 /\ reg_ok' m1 /\ only_layer l m m1 /\
  has_layer m1 l /\ forall i, in_range (size m) i -> value_at m1 l i unknown.
Proof.
  intros R. pose proof R as (R0 & Z0 & Z1).
  pose proof (pres_add_value l NO_INFORMATION m R) as RA.
  destruct (add_value_ok l NO_INFORMATION m Z0 Z1) as (m1 & A & V & O & M1 & L1 & X1).
  rewrite A in RA. cbn [post] in RA. exists m1. split; auto. split; auto. split; [|split; [|exact V]].
  - split; auto. split.
    + rewrite L1. destruct (exists_layer m l) eqn:K, (smem l (layers m)) eqn:S; auto; exfalso.
      * apply akeys_has in K; auto. apply smem_In in K. congruence.
      * apply smem_In, akeys_has in S; auto. congruence.
    + intros l' i v N. specialize (O l' N). unfold get in O. unfold value_at.
      destruct (aget (data m1) l'), (aget (data m) l'); try discriminate; [injection O as ->|]; tauto.
  - apply exists_has, X1. auto.
Qed.

Theorem C53_mismatch : forall (E : Env) (C : Cv) im l m, reg_ok' m ->
  In (i_enc im) (eight_bit ++ sixteen_bit) -> i_sound im = true -> (i_height im, i_width im) <> size m ->
  exists m', addLayerFromROSImage im l m = Ret false m' /\ only_layer l m m' /\
    forall i, in_range (size m) i -> value_at m' l i unknown.
Proof.
  intros E C im l m R HE HS SZ. destruct (added_layer E l m R) as (m1 & A & R1 & O & H1 & V).
  unfold addLayerFromROSImage. assert (exists d, depth_of (i_enc im) = Some d) as [d ->].
  { apply enc_cases in HE. destruct HE as [->|[->|[->|[->|[->| ->]]]]]; eexists; reflexivity. }
  rewrite HS. cbn [negb]. unfold bind at 1. rewrite A. unfold bind at 1, get_st. 
  assert (S1 : size m1 = size m) by (destruct O as ((_ & _ & _ & _ & _ & _ & -> & _) & _); reflexivity). rewrite S1.
  destruct (Z.eqb_spec (fst (size m)) (i_height im)) as [K0|], (Z.eqb_spec (snd (size m)) (i_width im)) as [K1|]; cbn [andb negb];
    try (exists m1; auto).
  exfalso. apply SZ. destruct (size m); cbn in K0, K1; congruence.
Qed.
Print Assumptions C53_mismatch.

Lemma loaded_ok : forall (E : Env) (C : Cv) im l m, real_or_double E -> gray_range C ->
  in_range (size m) (start m) -> reg_ok' m -> In (i_enc im) (eight_bit ++ sixteen_bit) -> i_sound im = true ->
  (i_height im, i_width im) = size m -> image_ok im ->
  exists m', addLayerFromROSImage im l m = Ret true m' /\ reg_ok' m' /\ only_layer l m m' /\
    (forall i, in_range (size m) i -> exists p, pixel im i p) /\
    (forall i p, in_range (size m) i -> pixel im i p -> value_at m' l i (pixel_cost (i_enc im) p)).
Proof.
  intros E C im l m X GR G R HE HS SZ [IL IP]. destruct (added_layer E l m R) as (m1 & A & R1 & O & H1 & V).
  destruct (px_cost_ok E C X GR (i_enc im) HE) as (depth & HD & HC).
  assert (S1 : size m1 = size m) by (destruct O as ((_ & _ & _ & _ & _ & _ & -> & _) & _); reflexivity).
  assert (T1 : start m1 = start m) by (destruct O as ((_ & _ & _ & _ & _ & _ & _ & ->) & _); reflexivity).
  assert (PX : forall i, in_range (size m) i -> exists p, pixel im i p).
  { intros i [I0 I1]. rewrite <- SZ in I0, I1. cbn [fst snd] in I0, I1. unfold pixel.
    destruct (nth_error (i_px im) (Z.to_nat (fst i * i_width im + snd i))) as [p|] eqn:K; [eauto|].
    apply nth_error_None in K. nia. }
  unfold addLayerFromROSImage. rewrite HD, HS. cbn [negb]. unfold bind at 1. rewrite A. unfold bind at 1, get_st. rewrite S1.
  replace (fst (size m) =? i_height im) with true by (rewrite <- SZ; symmetry; apply Z.eqb_refl).
  replace (snd (size m) =? i_width im) with true by (rewrite <- SZ; symmetry; apply Z.eqb_refl). cbn [andb negb]. unfold bind at 1. rewrite T1, map_visits_ok by exact G. cbn [lift].
  set (new := fun (i : idx) (l' : string) => if String.eqb l' l then
     match nth_error (i_px im) (Z.to_nat (fst i * i_width im + snd i)) with
     | Some p => match px_cost (i_enc im) depth p with Some v => Ok v | None => at_ m1 l' i end
     | None => at_ m1 l' i end else at_ m1 l' i).
  destruct (visit_cells new (image_cell im depth l) m1 R1 (visit_list (size m) (start m))) as (m2 & F & C2 & V2).
  - apply visit_list_NoDup, G.
  - intros i m2 Hi C2 A2. apply visit_list_In in Hi; [|exact G]. destruct (PX i Hi) as [p Hp]. unfold image_cell, new, pixel in *. rewrite Hp.
    pose proof Hi as [I0 I1]. rewrite <- SZ in I0, I1. cbn [fst snd] in I0, I1.
    match goal with |- context [if ?b then _ else Flt _] => replace b with true by (symmetry; lia) end.
    destruct (px_cost (i_enc im) depth p) as [v|].
    + destruct (at_set_cells l i v m2) as (m3 & B1 & B2 & B3).
      { apply C2. } { apply (cells_has _ _ _ C2). auto. } { rewrite (cells_size _ _ C2), S1. auto. }
      exists m3. split; auto. split; [eapply cells_trans; eauto|]. intros l' i'. rewrite B3.
      destruct (idx_eqb i' i) eqn:K; [apply idx_eqb_eq in K; subst|]; destruct (String.eqb_spec l' l) as [->|N]; cbn [andb]; auto.
    + exists m2. split; auto. split; auto. intros l' i'. destruct (idx_eqb i' i) eqn:K; auto. apply idx_eqb_eq in K; subst.
      rewrite A2. now destruct (String.eqb l' l).
  - unfold bind. rewrite F. cbn [ret]. exists m2. split; [reflexivity|].
    destruct C2 as (R2 & M2 & L2 & E2). destruct O as (M1 & L1 & V1).
    split; [exact R2|]. split; [|split; [exact PX|]].
    + split; [eapply same_meta_trans; eauto|]. split; [congruence|]. intros l' i v N. rewrite <- V1, <- !at_value by auto.
      rewrite V2. unfold new. destruct (String.eqb_spec l' l); [contradiction|]. now destruct (existsb _ _).
    + intros i p Hi Hp. apply at_value. rewrite V2.
      assert (existsb (idx_eqb i) (visit_list (size m) (start m)) = true) as ->.
      { apply existsb_exists. exists i. split; [apply visit_list_In; auto; exact G|now apply idx_eqb_eq]. }
      unfold new. rewrite String.eqb_refl. unfold pixel in Hp. rewrite Hp.
      assert (PR := HC p (IP p (nth_error_In _ _ Hp))).
      destruct (px_cost (i_enc im) depth p) as [v|].
      * now rewrite <- PR.
      * rewrite <- PR. apply at_value, V, Hi.
Qed.

Theorem C53_loaded : forall (E : Env) (C : Cv) im l m, real_or_double E -> gray_range C ->
  in_range (size m) (start m) -> reg_ok' m -> In (i_enc im) (eight_bit ++ sixteen_bit) -> i_sound im = true ->
  (i_height im, i_width im) = size m -> image_ok im ->
  exists m', addLayerFromROSImage im l m = Ret true m' /\ only_layer l m m' /\
    (forall i, in_range (size m) i -> exists p, pixel im i p) /\
    (forall i p, in_range (size m) i -> pixel im i p -> value_at m' l i (pixel_cost (i_enc im) p)).
Proof.
  intros E C im l m X GR G R HE HS SZ I. destruct (loaded_ok E C im l m X GR G R HE HS SZ I) as (m' & A & _ & B). now exists m'.
Qed.
Print Assumptions C53_loaded.

(** OpenCV's fixed point conversion of 8-bit colours. *)
Definition opencv (le : bool) : Cv :=
  {| gray8 := fun b g r => (1868 * b + 9617 * g + 4899 * r + 8192) / 16384;
     gray16 := fun b g r => (1868 * b + 9617 * g + 4899 * r + 8192) / 16384; little := le |}.

Lemma opencv_range le : gray_range (opencv le).
Proof.
  split; intros b g r B G R; cbn [gray8 gray16 opencv]; split; try (apply Z.div_pos; lia); apply Z.div_lt_upper_bound; lia.
Qed.

Example C53_case :
  let m := after (addLayerFromROSImage (E := binary64 BWrap) (C := opencv true)
     (Image "bgra8" 5 4 true (map (fun k => Px (12 * k) (10 * k) k (if k mod 3 =? 0 then 100 else 200)) (zseq 20))) "c") sample in
  at_ m "c" (0, 1) = Ok 246 /\ at_ m "c" (0, 3) = Ok 255 /\ at_ m "c" (4, 3) = Ok 112 /\ at_ m "a" (4, 3) = at_ sample "a" (4, 3) /\
  layers m = ["a"; "b"; "c"]%string.
Proof. conj_vm. Qed.

Example C53_wiped_case :
  let m := after (addLayerFromROSImage (E := binary64 BWrap) (C := opencv true) (Image "mono8" 4 5 true (repeat (Px 0 0 0 0) 20)) "a") sample in
  at_ sample "a" (0, 0) = Ok 1 /\ at_ m "a" (0, 0) = Ok 255.
Proof. conj_vm. Qed.

(** ** C54 *)

(** On a little-endian host the bytes of a gray value are swapped: black and
    white stay, but brightness 256 of 65536 reads as 1. *)
Theorem C54_little : forall (C : Cv), little = true -> forall v, 0 <= v < 65536 ->
  read16 v = swapped v /\ swapped (swapped v) = v /\
  (read16 v = v <-> v mod 256 = v / 256).
Proof.
  intros C L v Hv. rewrite (read16_ok C) by auto. unfold as_read. rewrite L. split; [reflexivity|].
  assert (0 <= v / 256 < 256) by (split; [apply Z.div_pos; lia|apply Z.div_lt_upper_bound; lia]).
  pose proof (Z.mod_pos_bound v 256 ltac:(lia)). pose proof (Z.div_mod v 256 ltac:(lia)).
  assert (A : swapped v mod 256 = v / 256 /\ swapped v / 256 = v mod 256).
  { unfold swapped. split; symmetry; [eapply Z.mod_unique|eapply Z.div_unique]; try reflexivity; lia. }
  destruct A as [A B]. split.
  - unfold swapped at 1. rewrite A, B. lia.
  - unfold swapped. split; intros K; lia.
Qed.
Print Assumptions C54_little.

Theorem C54_big : forall (C : Cv), little = false -> forall v, 0 <= v < 65536 -> read16 v = v.
Proof. intros C L v Hv. rewrite (read16_ok C) by auto. unfold as_read. now rewrite L. Qed.
Print Assumptions C54_big.

(** The brighter of two pixels can get the higher cost, over the whole range. *)
Theorem C54_order_refuted : exists im a b i j v w,
  i_enc im = "mono16"%string /\ image_ok im /\ pixel im i a /\ pixel im j b /\ p_b a < p_b b /\
  let m := after (addLayerFromROSImage (E := binary64 BWrap) (C := opencv true) im "c") sample in
  value_at m "c" i v /\ value_at m "c" j w /\ v = 0 /\ w = 253.
Proof.
  exists (Image "mono16" 5 4 true (map (fun k => Px (255 + k) 0 0 0) (zseq 20))), (Px 255 0 0 0), (Px 256 0 0 0), (0, 0), (0, 1), 0, 253.
  split; [reflexivity|]. split.
  { split; [reflexivity|]. intros p Hp. cbn [i_px] in Hp. apply in_map_iff in Hp as (k & <- & Hk). apply In_zseq in Hk.
    match goal with |- px_range ?d _ => change d with 65536 end. unfold px_range. cbn [p_b p_g p_r p_a]. lia. }
  split; [reflexivity|]. split; [reflexivity|]. split; [reflexivity|]. cbv zeta. split; [|split; [|split; reflexivity]]; apply at_value; vm_compute; reflexivity.
Qed.
Print Assumptions C54_order_refuted.

Example C54_case : read16 (C := opencv true) 255 = 65280 /\ read16 (C := opencv true) 256 = 1 /\ read16 (C := opencv false) 255 = 255.
Proof. conj_vm. Qed.
