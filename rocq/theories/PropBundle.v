(** Properties C55 and C56: cost maps through image bundles. *)
From Coq Require Import ZArith QArith Qround Qabs Qfield Ascii String List Bool Lia Lqa Sorted Permutation.
From Coq Require Import ZifyBool.
From Verif Require Import Base Mat GridMapMath GridIter CostMap Converter Bundles Spec ConvertSpec BaseLemmas GeoLemmas CoreProofs CoreProofs2 CoreFinal IterProofs MoveProofs AddDataProofs FloatLemmas FloatMono MessageProofs PropMessage PropGrid PropImage Samples.
Import ListNotations.
Open Scope Z_scope.

(** ** Specification *)

(** Costs whose gray value is stored one too low by double arithmetic. *)
Definition short : list Z :=
  [43; 59; 74; 75; 90; 91; 106; 107; 122; 123; 132; 133; 140; 141; 148; 149; 156; 157; 164; 165; 172; 173; 180; 181;
   188; 189; 196; 197; 198; 204; 205; 206; 212; 213; 214; 220; 221; 222; 228; 229; 230; 236; 237; 238; 244; 245; 246;
   252; 253; 254].

(** The cost that comes back: unknown stays, the upper half loses one and the
    costs in the list gain one. *)
Definition reloaded (more : list Z) (v : Z) : Z :=
  if v =? unknown then unknown
  else v + (if existsb (Z.eqb v) more then 1 else 0) - (if 128 <=? v then 1 else 0).

(** Gray colours convert to their common value. *)
Definition gray_neutral (C : Cv) : Prop := forall v, 0 <= v < 256 -> gray8 v v v = v.

(** Numbers survive being printed. *)
Definition text_exact (T : Text) : Prop := forall q, (text q == q)%Q.

(** Costs are bytes. *)
Definition bytes (m : cmap) : Prop := forall l i v, value_at m l i v -> 0 <= v <= 255.

(** Strictly ascending names. *)
Definition ascending : list string -> Prop := Sorted (fun a b => String.ltb a b = true).

(** ** One cost *)

Lemma flipped_exact (E : Env) (X : Exact E) v : flipped v = 255 - v.
Proof.
  unfold flipped, fmul, fsub, fdiv. assert (Q : (rnd (255 * rnd (1 - rnd (inject_Z v / 255))) == inject_Z (255 - v))%Q).
  { rewrite (X _), (X _), (X _). unfold Z.sub. rewrite inject_Z_plus, inject_Z_opp. change (inject_Z 255) with 255%Q. field. }
  rewrite Q. unfold Qtrunc. cbn [Qnum Qden inject_Z]. apply Z.quot_1_r.
Qed.

Lemma flipped_double p v : 0 <= v <= 255 -> flipped (E := binary64 p) v = if existsb (Z.eqb v) short then 254 - v else 255 - v.
Proof.
  intros Hv. apply Z.eqb_eq. revert v Hv.
  apply (costs_all (fun v => flipped (E := binary64 p) v =? if existsb (Z.eqb v) short then 254 - v else 255 - v)).
  unfold flipped, fmul, fsub, fdiv. cbn [rnd binary64]. vm_compute. reflexivity.
Qed.

Definition extra (E : Env) (more : list Z) : Prop :=
  forall v, 0 <= v <= 255 -> flipped v = if existsb (Z.eqb v) more then 254 - v else 255 - v.

Definition gray_of (more : list Z) (v : Z) : Z := if existsb (Z.eqb v) more then 254 - v else 255 - v.

Lemma trip_table more : more = [] \/ more = short -> forall v, 0 <= v <= 255 ->
  0 <= gray_of more v < 256 /\ (v <> 255 -> darkness 256 (gray_of more v) = reloaded more v).
Proof.
  intros H v Hv.
  assert (K : (0 <=? gray_of more v) && (gray_of more v <? 256) && ((v =? 255) || (darkness 256 (gray_of more v) =? reloaded more v)) = true).
  { revert v Hv. apply (costs_all (fun v => (0 <=? gray_of more v) && (gray_of more v <? 256) && ((v =? 255) || (darkness 256 (gray_of more v) =? reloaded more v)))).
    destruct H as [->| ->]; vm_compute; reflexivity. }
  lia.
Qed.

Lemma saved_cost (E : Env) (C : Cv) more v : extra E more -> more = [] \/ more = short -> gray_neutral C -> 0 <= v <= 255 ->
  pixel_cost "bgra8" (saved_px v) = reloaded more v /\ px_range 256 (saved_px v).
Proof.
  intros X M N Hv. destruct (trip_table more M v Hv) as [R T]. unfold pixel_cost, saved_px. cbn [String.eqb Ascii.eqb Bool.eqb p_a p_b p_g p_r].
  rewrite (X v Hv). fold (gray_of more v). unfold NO_INFORMATION, reloaded, unknown, px_range in *. cbn [p_a p_b p_g p_r]. destruct (Z.eqb_spec v 255) as [->|NE].
  - split; [reflexivity|lia].
  - split; [|lia]. change (255 <? 128) with false. cbn iota. rewrite N by lia. rewrite T by auto. reflexivity.
Qed.

(** ** The yaml file *)

Lemma map_insert_new {A} k (v : A) l : ~ In k (map fst l) -> Permutation (map_insert k v l) ((k, v) :: l).
Proof.
  induction l as [|[k' v'] t IH]; intros H; cbn [map_insert]; [reflexivity|]. cbn [map fst In] in H.
  destruct (String.compare k k') eqn:K.
  - apply String.compare_eq_iff in K. subst. tauto.
  - reflexivity.
  - rewrite IH by tauto. apply perm_swap.
Qed.

Lemma map_insert_sorted {A} k (v : A) l : ascending (map fst l) -> ~ In k (map fst l) -> ascending (map fst (map_insert k v l)).
Proof.
  unfold ascending. induction l as [|[k' v'] t IH]; intros S H; cbn [map_insert map fst].
  - constructor; constructor.
  - cbn [map fst In] in S, H. destruct (String.compare k k') eqn:K.
    + apply String.compare_eq_iff in K. subst. tauto.
    + cbn [map fst]. constructor; auto. constructor. unfold String.ltb. now rewrite K.
    + inversion S as [|? ? S1 S2]; subst. cbn [map fst]. constructor; [apply IH; tauto|].
      assert (KL : String.ltb k' k = true). { unfold String.ltb. rewrite String.compare_antisym, K. reflexivity. }
      destruct t as [|[k2 v2] t]; cbn [map_insert map fst]; [constructor; auto|].
      destruct (String.compare k k2) eqn:K2; cbn [map fst]; [inversion S2; now constructor|now constructor|inversion S2; now constructor].
Qed.

Lemma yaml_layers_ok (f : string -> string) ls : forall acc, NoDup (map fst acc ++ ls) -> ascending (map fst acc) ->
  exists r, yaml_layers (map (fun l => (Some l, Some (f l))) ls) acc = Ok r /\
    Permutation r (acc ++ map (fun l => (l, f l)) ls) /\ ascending (map fst r).
Proof.
  induction ls as [|l t IH]; intros acc ND S; cbn [map yaml_layers].
  - exists acc. rewrite app_nil_r. auto.
  - assert (NI : ~ In l (map fst acc)). { apply NoDup_remove_2 in ND. intros K. apply ND, in_app_iff. auto. }
    pose proof (map_insert_new l (f l) acc NI) as P.
    destruct (IH (map_insert l (f l) acc)) as (r & H & P2 & S2).
    + eapply Permutation_NoDup; [|exact ND]. rewrite (Permutation_map fst P). cbn [map fst]. symmetry. apply Permutation_middle.
    + now apply map_insert_sorted.
    + exists r. split; auto. split; auto. rewrite P2, P. cbn [app map]. apply Permutation_middle.
Qed.

(** ** The files *)

Lemma length_append a b : String.length (a ++ b) = (String.length a + String.length b)%nat.
Proof. induction a; cbn; auto. Qed.

Lemma png_name_inj a b : png_name a = png_name b -> a = b.
Proof.
  unfold png_name. revert b. induction a as [|c a IH]; intros [|c' b] H; cbn in H.
  - reflexivity.
  - exfalso. apply (f_equal String.length) in H. cbn in H. rewrite !length_append in H. cbn in H. lia.
  - exfalso. apply (f_equal String.length) in H. cbn in H. rewrite !length_append in H. cbn in H. lia.
  - injection H as -> H. f_equal. now apply IH.
Qed.

(** The picture of a matrix. *)
Definition picture {E : Env} (d : mat) : png :=
  Png 4 (mrows d) (mcols d) (map (fun k => saved_px (match mget d (k / mcols d) (k mod mcols d) with Some v => v | None => 0 end)) (zseq (mrows d * mcols d))).

Lemma cell_div n k : 0 <= snd n -> 0 <= k < fst n * snd n -> in_range n (k / snd n, k mod snd n).
Proof.
  intros HN H. assert (0 < snd n) by (destruct (Z.eq_dec (snd n) 0) as [Z|]; [rewrite Z, Z.mul_0_r in H; lia|lia]). split; cbn [fst snd].
  - split; [apply Z.div_pos; lia|]. apply Z.div_lt_upper_bound; lia.
  - now apply Z.mod_pos_bound.
Qed.

Lemma mat_has d n i : wf_mat d -> (mrows d, mcols d) = n -> in_range n i -> exists v, mget d (fst i) (snd i) = Some v.
Proof.
  intros (A & B & L) <- [I0 I1]. cbn [fst snd] in I0, I1. unfold mget. rewrite (proj2 (in_mat_iff d (fst i) (snd i))) by lia.
  destruct (nth_error (mcoef d) (Z.to_nat (fst i + snd i * mrows d))) eqn:K; [eauto|]. apply nth_error_None in K. nia.
Qed.

Lemma layer_png_ok (E : Env) m d : wf_mat d -> mrows d = fst (size m) -> mcols d = snd (size m) -> layer_png m d = Ok (picture d).
Proof.
  intros W A B. unfold layer_png. rewrite A, B, !Z.eqb_refl. cbn [andb negb].
  rewrite (rmap_ok _ (fun k => match mget d (k / snd (size m)) (k mod snd (size m)) with Some v => v | None => 0 end)).
  - cbn [rbind]. unfold picture. rewrite map_map, A, B. reflexivity.
  - intros k Hk. apply In_zseq in Hk. destruct (mat_has d (size m) (k / snd (size m), k mod snd (size m)) W) as [v Hv].
    + rewrite A, B. now destruct (size m).
    + apply cell_div; [rewrite <- B; apply W|exact Hk].
    + cbn [fst snd] in Hv. rewrite Hv. reflexivity.
Qed.

Lemma picture_at (E : Env) d i v : wf_mat d -> mget d (fst i) (snd i) = Some v ->
  nth_error (f_px (picture d)) (Z.to_nat (fst i * mcols d + snd i)) = Some (saved_px v).
Proof.
  intros W H. assert (IM : in_mat d (fst i) (snd i) = true) by (unfold mget in H; destruct (in_mat d _ _); [auto|discriminate]).
  apply in_mat_iff in IM as [I0 I1]. unfold picture. cbn [f_px]. rewrite nth_error_map.
  rewrite zseq_nth by nia. cbn [option_map].
  assert (D : (fst i * mcols d + snd i) / mcols d = fst i) by (rewrite Z.div_add_l, Z.div_small by lia; lia).
  assert (Q : (fst i * mcols d + snd i) mod mcols d = snd i) by (rewrite Z.add_comm, Z.mod_add, Z.mod_small by lia; lia).
  rewrite D, Q.
  now rewrite H.
Qed.

Lemma aget_unique {A} (l : list (string * A)) k v : NoDup (map fst l) -> In (k, v) l -> aget l k = Some v.
Proof.
  induction l as [|[k' v'] t IH]; intros ND H; [easy|]. cbn [aget]. inversion ND as [|? ? N1 N2]; subst. destruct H as [H|H].
  - injection H as -> ->. now rewrite String.eqb_refl.
  - destruct (String.eqb_spec k k') as [->|]; auto. exfalso. apply N1. apply in_map_iff. exists (k', v). auto.
Qed.

Lemma toImageBundle_ok (E : Env) (T : Text) m : reg_ok m -> exists fs,
  toImageBundle m = Ok (Bundle (bundle_yaml m) fs) /\
  forall l d, aget (data m) l = Some d -> aget fs (png_name l) = Some (picture d).
Proof.
  intros R. unfold toImageBundle.
  rewrite (rmap_ok _ (fun l => (png_name l, picture (matrix_of m l)))).
  - cbn [rbind]. eexists. split; [reflexivity|]. intros l d Hd. apply aget_unique.
    + rewrite map_rev. apply NoDup_rev. rewrite map_map. cbn [fst]. apply FinFun.Injective_map_NoDup; [|apply (r_nodup _ R)].
      intros a b. apply png_name_inj.
    + apply -> in_rev. apply in_map_iff. exists l. unfold matrix_of. rewrite Hd. split; auto. apply (r_same _ R), BaseLemmas.aget_In. eauto.
  - intros l Hl. apply (r_same _ R), BaseLemmas.aget_In in Hl as [d Hd]. unfold layer_file, get, matrix_of. rewrite Hd. cbn [rbind].
    destruct (r_mat _ R _ _ Hd) as (W & A & B). now rewrite (layer_png_ok E m d W A B).
Qed.

(** ** Reading it back *)

Lemma only_trans l m m1 m2 (P : string -> Prop) : only_layer l m m1 -> P l ->
  (same_meta m1 m2 /\ forall l' i v, ~ P l' -> (value_at m2 l' i v <-> value_at m1 l' i v)) ->
  same_meta m m2 /\ forall l' i v, ~ P l' -> (value_at m2 l' i v <-> value_at m l' i v).
Proof.
  intros (A & _ & B) HP (C & D). split; [eapply same_meta_trans; eauto|]. intros l' i v N. rewrite D by auto. apply B. congruence.
Qed.

Lemma files_loaded (E : Env) (C : Cv) files (good : string -> idx -> Z -> Prop) : real_or_double E -> gray_range C -> forall ls m,
  NoDup (map fst ls) -> reg_ok' m -> in_range (size m) (start m) ->
  (forall l f, In (l, f) ls -> exists p, aget files f = Some p /\ f_channels p = 4 /\ (f_rows p, f_cols p) = size m /\
     image_ok (file_image (Some p)) /\
     (forall i v, in_range (size m) i -> good l i v -> exists q, nth_error (f_px p) (Z.to_nat (fst i * f_cols p + snd i)) = Some q /\ pixel_cost "bgra8" q = v)) ->
  exists m', mfor ls (add_file files) m = Ret tt m' /\ reg_ok' m' /\ same_meta m m' /\
    layers m' = appended (layers m) (map fst ls) /\
    (forall l i v, ~ In l (map fst ls) -> (value_at m' l i v <-> value_at m l i v)) /\
    (forall l i v, In l (map fst ls) -> in_range (size m) i -> good l i v -> value_at m' l i v).
Proof.
  intros X GR. induction ls as [|[l f] t IH]; intros m ND R G HF.
  - exists m. split; [reflexivity|]. split; auto. split; [apply same_meta_refl|]. split; [reflexivity|]. split; [tauto|]. now intros.
  - inversion ND as [|? ? N1 N2]; subst. destruct (HF l f (or_introl eq_refl)) as (p & Hp & CH & SZ & IO & PX).
    assert (FE : file_image (Some p) = Image BGRA8 (f_rows p) (f_cols p) true (f_px p)) by (unfold file_image; rewrite CH; reflexivity).
    destruct (loaded_ok E C (file_image (Some p)) l m X GR G R) as (m1 & A & R1 & O & PE & PV); auto.
    { rewrite FE. cbn. auto. }
    pose proof O as (M1 & L1 & O1). pose proof M1 as (_ & _ & _ & _ & _ & _ & S1 & T1).
    destruct (IH m1) as (m2 & B & R2 & M2 & L2 & O2 & V2); auto.
    { now rewrite <- S1, <- T1. } { intros l' f' H. rewrite <- S1. apply HF. now right. }
    exists m2. cbn [mfor]. unfold add_file at 1, bind. cbn [fst snd]. rewrite Hp, A. cbn [ret]. split; [exact B|]. split; auto.
    split; [eapply same_meta_trans; eauto|]. cbn [map fst appended]. split; [now rewrite L2, L1|]. split.
    + intros l' i v N. cbn [In] in N. rewrite O2 by tauto. apply O1. intros ->. tauto.
    + intros l' i v [->|H] Hi Hg.
      * apply O2; auto. destruct (PX i v Hi Hg) as (q & Hq & <-). rewrite FE in PV. apply (PV i q Hi). exact Hq.
      * apply V2; auto. now rewrite <- S1.
Qed.

(** The number of cells survives the float product. *)
Lemma float_count (E : Env) (X : real_or_double E) r n : (0 < r)%Q -> 1 <= n <= 2 ^ 22 ->
  let x := rnd32 (rnd32 r * rnd32 (inject_Z n)) in (0 < x)%Q /\ Qround_away (fdiv x (rnd32 r)) = n.
Proof.
  intros RP Hn x.
  assert (SP : (0 < rnd32 r)%Q).
  { unfold rnd32. destruct (rne_binade 24 r ltac:(lia) RP) as [A _]. pose proof (pow2_pos (Qlog2 r)). lra. }
  set (s := rnd32 r) in *. clearbody s. clear r RP.
  assert (NX : (rnd32 (inject_Z n) == inject_Z n)%Q) by (apply rne_Z; lia).
  set (N := inject_Z n) in *.
  assert (N1 : (1 <= N)%Q) by (change 1%Q with (inject_Z 1); unfold N; rewrite <- Zle_Qle; lia).
  assert (N2 : (N <= 4194304)%Q) by (change 4194304%Q with (inject_Z (2 ^ 22)); unfold N; rewrite <- Zle_Qle; lia).
  assert (NS : (0 < N * s)%Q) by (apply Qmult_lt_0_compat; lra).
  assert (XE : (x == rne 24 (N * s))%Q). { unfold x. apply rne_comp. rewrite NX. ring. }
  pose proof (rne_error 24 (N * s) ltac:(lia)) as E1. rewrite (Qabs_pos (N * s)) in E1 by lra. rewrite <- XE in E1.
  change (pow2 (- (24))) with (1 # 16777216)%Q in E1. apply Qabs_Qle_condition in E1 as [E1 E1']. clearbody x.
  assert (XP : (0 < x)%Q) by lra. split; auto.
  assert (YL : (N * (1 - (1 # 16777216)) <= x / s)%Q). { apply Qle_shift_div_l; auto. lra. }
  assert (YU : (x / s <= N * (1 + (1 # 16777216)))%Q). { apply Qle_shift_div_r; auto. lra. }
  unfold fdiv. set (y := (x / s)%Q) in *.
  assert (K : (Qabs (rnd y - y) <= (1 # 9007199254740992) * Qabs y)%Q).
  { destruct X as [X|[p ->]].
    - rewrite (X y). assert (y - y == 0)%Q as -> by ring. change (Qabs 0) with 0%Q. apply Qmult_le_0_compat; [lra|apply Qabs_nonneg].
    - cbn [rnd binary64]. pose proof (rne_error 53 y ltac:(lia)) as K. change (pow2 (- (53))) with (1 # 9007199254740992)%Q in K. exact K. }
  rewrite (Qabs_pos y) in K by lra. apply Qabs_Qle_condition in K as [K1 K2]. set (z := rnd y) in *. clearbody z y.
  apply Qround_away_unique; fold N; clearbody N; lra.
Qed.

Lemma rod_nonneg E (X : real_or_double E) : @rnd_nonneg E.
Proof. destruct X as [X|[p ->]]; [now apply exact_nonneg|exact (rne_nonneg 53)]. Qed.

Lemma bundle_round : forall (E : Env) (C : Cv) (T : Text) more, real_or_double E -> gray_range C -> gray_neutral C -> text_exact T ->
  extra E more -> more = [] \/ more = short ->
  forall m m0, reg_ok m -> reg_ok' m0 -> bytes m -> (0 < resn m)%Q -> 1 <= fst (size m) <= 2 ^ 22 -> 1 <= snd (size m) <= 2 ^ 22 ->
  exists b m' ls, toImageBundle m = Ok b /\ fromImageBundle (Some b) m0 = Ret tt m' /\
    frame m' = frame m /\ (resn m' == rne 24 (resn m))%Q /\ size m' = size m /\ veq (pos m') (fst (pos m), fst (pos m)) /\
    start m' = (0, 0) /\ stamp m' = 0 /\ basic m' = basic m0 /\
    layers m' = appended (layers m0) ls /\ Permutation ls (layers m) /\ ascending ls /\
    (forall l i v, in_range (size m) i -> value_at m l i v -> value_at m' l i (reloaded more v)) /\
    (forall l i, In l (layers m0) -> ~ has_layer m l -> in_range (size m) i -> value_at m' l i unknown).
Proof.
  intros E C T more X GR GN TX EX MO m m0 R R0 BY RP S0 S1.
  destruct (toImageBundle_ok E T m R) as (fs & TB & FS). exists (Bundle (bundle_yaml m) fs).
  destruct (yaml_layers_ok png_name (layers m) []) as (ls & YL & PL & AS); [apply R|constructor|]. cbn [app map fst] in PL, AS.
  assert (TR : (0 < text (resn m))%Q) by now rewrite (TX _).
  destruct (float_count E X (text (resn m)) (fst (size m)) TR S0) as [P0 C0].
  destruct (float_count E X (text (resn m)) (snd (size m)) TR S1) as [P1 C1].
  assert (SP : (0 < rnd32 (text (resn m)))%Q).
  { unfold rnd32. destruct (rne_binade 24 _ ltac:(lia) TR) as [A _]. pose proof (pow2_pos (Qlog2 (text (resn m)))). lra. }
  unfold fromImageBundle. cbn [b_yaml b_files y_frame y_cx y_cy y_resn y_nx y_ny y_layers bundle_yaml].
  unfold bind at 1. rewrite YL. cbn [lift]. unfold bind at 1.
  match goal with |- context [setGeometry ?a ?b ?c m0] => set (L := a); set (r := b); set (p := c) end.
  pose proof (pres_setGeometry (rod_nonneg E X) L r p m0 R0) as PR.
  rewrite (setGeometry_any L r p m0) in * by assumption.
  assert (CO : cells_of L r = size m). { unfold cells_of, L, r. cbn [fst snd]. rewrite C0, C1. now destruct (size m). }
  rewrite CO in *. unfold bind at 1, setFrameId, modify at 1. unfold bind at 1, resetTimestamp, modify at 1.
  cbn [set_frame set_stamp frame stamp data layers basic len resn pos size start].
  match goal with |- context [mfor _ _ ?x] => set (m1 := x) end. cbn [post] in PR.
  assert (R1 : reg_ok' m1) by (eapply reg_meta; [| | |exact PR]; reflexivity).
  assert (LS : forall l f, In (l, f) ls <-> In l (layers m) /\ f = png_name l).
  { intros l f. split.
    - intros H. apply (Permutation_in _ PL) in H. apply in_map_iff in H as (x & H & HI). injection H as -> <-. auto.
    - intros [H ->]. apply (Permutation_in _ (Permutation_sym PL)). apply in_map_iff. eauto. }
  assert (FL : map fst (map (fun l => (l, png_name l)) (layers m)) = layers m) by (rewrite map_map; apply map_id).
  assert (PF : Permutation (map fst ls) (layers m)). { rewrite (Permutation_map fst PL). now rewrite FL. }
  destruct (files_loaded E C fs (fun l i v => exists w, value_at m l i w /\ v = reloaded more w) X GR ls m1) as (m' & F & R' & M & LA & VO & VN).
  - eapply Permutation_NoDup; [symmetry; exact PF|apply R].
  - exact R1.
  - unfold m1, in_range. cbn. lia.
  - intros l f H. apply LS in H as [Hl ->]. apply (r_same _ R), BaseLemmas.aget_In in Hl as [d Hd]. exists (picture d).
    destruct (r_mat _ R _ _ Hd) as (W & A & B).
    assert (SZ : (mrows d, mcols d) = size m) by (rewrite A, B; now destruct (size m)).
    split; [auto|]. split; [reflexivity|]. split; [exact SZ|].
    assert (CV : forall k, 0 <= k < mrows d * mcols d -> exists v, mget d (k / mcols d) (k mod mcols d) = Some v /\ 0 <= v <= 255).
    { intros k Hk. destruct (mat_has d _ (k / mcols d, k mod mcols d) W eq_refl) as [v Hv].
      { apply (cell_div (mrows d, mcols d)); [apply W|exact Hk]. }
      exists v. split; auto. apply (BY l (k / mcols d, k mod mcols d)). exists d. auto. }
    split.
    + unfold image_ok. cbn [file_image i_px i_height i_width i_enc picture f_px f_rows f_cols f_channels]. split.
      { rewrite map_length, zseq_length. rewrite A, B. nia. }
      intros q Hq. apply in_map_iff in Hq as (k & <- & Hk). apply In_zseq in Hk. destruct (CV k Hk) as (v & -> & Hv).
      apply (saved_cost E C more v EX MO GN Hv).
    + intros i v Hi (w & (d' & Hd' & Hw) & ->). rewrite Hd in Hd'. injection Hd' as <-. exists (saved_px w). split; [now apply picture_at|].
      apply (saved_cost E C more w EX MO GN). apply (BY l i). exists d. auto.
  - exists m', (map fst ls). split; [exact TB|]. split; [exact F|].
    destruct M as (K1 & K2 & K3 & K4 & K5 & K6 & K7 & K8). unfold m1 in K1, K2, K3, K4, K5, K6, K7, K8. cbn in K1, K2, K3, K4, K5, K6, K7, K8.
    split; [now rewrite <- K1|]. split; [rewrite <- K5; unfold r, rnd32; apply rne_comp, TX|]. split; [now rewrite <- K7|].
    split. { rewrite <- K6. unfold p. split; cbn [fst snd]; apply TX. }
    split; [now rewrite <- K8|]. split; [now rewrite <- K2|]. split; [now rewrite <- K3|]. split; [exact LA|]. split; [exact PF|]. split; [exact AS|].
    split.
    + intros l i v Hi Hv. apply VN.
      * apply (Permutation_in _ (Permutation_sym PF)). apply (r_same _ R), BaseLemmas.aget_In. destruct Hv as (d & Hd & _). eauto.
      * exact Hi.
      * eauto.
    + intros l i Hl NH Hi. apply VO.
      * intros K. apply (Permutation_in _ PF) in K. apply (r_same _ R), BaseLemmas.aget_In in K. now apply NH.
      * destruct R0 as [R0 _]. apply (r_same _ R0), BaseLemmas.aget_In in Hl as [d Hd]. exists (mconst (fst (size m)) (snd (size m)) NO_INFORMATION).
        split; [|apply mget_mconst; apply Hi]. unfold m1. cbn [data].
        etransitivity; [apply (aget_map (fun _ => mconst (fst (size m)) (snd (size m)) NO_INFORMATION))|now rewrite Hd].
Qed.

(** ** C55 *)

(** In exact arithmetic every cost of the upper half comes back one lower. *)
Theorem C55_exact : forall (E : Env) (C : Cv) (T : Text), Exact E -> gray_range C -> gray_neutral C -> text_exact T ->
  forall m m0, reg_ok m -> reg_ok' m0 -> bytes m -> (0 < resn m)%Q -> 1 <= fst (size m) <= 2 ^ 22 -> 1 <= snd (size m) <= 2 ^ 22 ->
  exists b m', toImageBundle m = Ok b /\ fromImageBundle (Some b) m0 = Ret tt m' /\
    forall l i v, in_range (size m) i -> value_at m l i v ->
      value_at m' l i (if v =? unknown then unknown else if v <=? 127 then v else v - 1).
Proof.
  intros E C T X GR GN TX m m0 R R0 BY RP S0 S1.
  destruct (bundle_round E C T [] (or_introl X) GR GN TX) with (m := m) (m0 := m0)
    as (b & m' & ls & A & B & _ & _ & _ & _ & _ & _ & _ & _ & _ & _ & V & _); auto.
  { intros v _. cbn. now apply flipped_exact. }
  exists b, m'. split; auto. split; auto. intros l i v Hi Hv. specialize (V l i v Hi Hv).
  assert (K : reloaded [] v = if v =? unknown then unknown else if v <=? 127 then v else v - 1).
  { unfold reloaded. cbn [existsb]. destruct (v =? unknown); auto. destruct (Z.leb_spec 128 v), (Z.leb_spec v 127); lia. }
  now rewrite <- K.
Qed.
Print Assumptions C55_exact.

(** In double arithmetic fifty costs come back one higher than that. *)
Theorem C55_double : forall (p : bpolicy) (C : Cv) (T : Text), gray_range C -> gray_neutral C -> text_exact T ->
  forall m m0, reg_ok m -> reg_ok' m0 -> bytes m -> (0 < resn m)%Q -> 1 <= fst (size m) <= 2 ^ 22 -> 1 <= snd (size m) <= 2 ^ 22 ->
  exists b m', toImageBundle (E := binary64 p) m = Ok b /\ fromImageBundle (E := binary64 p) (Some b) m0 = Ret tt m' /\
    forall l i v, in_range (size m) i -> value_at m l i v -> value_at m' l i (reloaded short v).
Proof.
  intros p C T GR GN TX m m0 R R0 BY RP S0 S1.
  destruct (bundle_round (binary64 p) C T short (or_intror (ex_intro _ p eq_refl)) GR GN TX) with (m := m) (m0 := m0)
    as (b & m' & ls & A & B & _ & _ & _ & _ & _ & _ & _ & _ & _ & _ & V & _); auto.
  { intros v Hv. now apply flipped_double. }
  now exists b, m'.
Qed.
Print Assumptions C55_double.

(** What this does to the scale: free, lethal and unknown survive, inscribed
    survives, no cost moves by more than one, the order is kept weakly, and
    some costs merge. *)
Theorem C55_shape :
  reloaded short 0 = 0 /\ reloaded short 253 = 253 /\ reloaded short 254 = 254 /\ reloaded short 255 = 255 /\
  (forall v, 0 <= v <= 255 -> Z.abs (reloaded short v - v) <= 1 /\ 0 <= reloaded short v <= 255 /\
     (reloaded short v = 255 <-> v = 255) /\ (reloaded short v = 254 <-> v = 254)) /\
  (forall a b, 0 <= a <= b -> b <= 255 -> reloaded short a <= reloaded short b) /\
  reloaded short 43 = reloaded short 44 /\ reloaded [] 254 = 253.
Proof.
  split; [reflexivity|]. split; [reflexivity|]. split; [reflexivity|]. split; [reflexivity|]. split; [|split; [|split; reflexivity]].
  - intros v Hv.
    assert (K : (Z.abs (reloaded short v - v) <=? 1) && (0 <=? reloaded short v) && (reloaded short v <=? 255) &&
       Bool.eqb (reloaded short v =? 255) (v =? 255) && Bool.eqb (reloaded short v =? 254) (v =? 254) = true).
    { revert v Hv. apply (costs_all (fun v => (Z.abs (reloaded short v - v) <=? 1) && (0 <=? reloaded short v) && (reloaded short v <=? 255) &&
        Bool.eqb (reloaded short v =? 255) (v =? 255) && Bool.eqb (reloaded short v =? 254) (v =? 254))). vm_compute. reflexivity. }
    rewrite !andb_true_iff in K. destruct K as [[[[K1 K2] K3] K4] K5]. apply Bool.eqb_prop in K4, K5. lia.
  - assert (ST : forall v, 0 <= v <= 255 -> v = 255 \/ reloaded short v <= reloaded short (v + 1)).
    { intros v Hv. assert (K : (v =? 255) || (reloaded short v <=? reloaded short (v + 1)) = true); [|lia].
      revert v Hv. apply (costs_all (fun v => (v =? 255) || (reloaded short v <=? reloaded short (v + 1)))). vm_compute. reflexivity. }
    intros a b Ha. replace b with (a + Z.of_nat (Z.to_nat (b - a))) by lia. induction (Z.to_nat (b - a)) as [|k IH]; intros Hb.
    + rewrite Z.add_0_r. lia.
    + rewrite Nat2Z.inj_succ in *. destruct (ST (a + Z.of_nat k)) as [K|K]; [lia|lia|].
      replace (a + Z.succ (Z.of_nat k)) with (a + Z.of_nat k + 1) by lia. assert (reloaded short a <= reloaded short (a + Z.of_nat k)) by (apply IH; lia). lia.
Qed.
Print Assumptions C55_shape.

Lemma opencv_neutral le : gray_neutral (opencv le).
Proof. intros v Hv. cbn [gray8 opencv]. symmetry. apply (Z.div_unique_pos _ _ _ 8192); lia. Qed.

Definition plain : Text := {| text := fun q => q |}.

Definition reload (m : cmap) : cmap :=
  match toImageBundle (E := binary64 BWrap) (T := plain) m with
  | Ok b => after (fromImageBundle (E := binary64 BWrap) (C := opencv true) (Some b)) (new_map ["z"%string])
  | _ => new_map []
  end.

Example C55_case : let m := after (at_set "a" (0, 0) 254 ;;; at_set "a" (0, 1) 255 ;;; at_set "a" (0, 2) 43 ;;; at_set "a" (0, 3) 200)%mon sample in
  at_ (reload m) "a" (0, 0) = Ok 254 /\ at_ (reload m) "a" (0, 1) = Ok 255 /\ at_ (reload m) "a" (0, 2) = Ok 44 /\
  at_ (reload m) "a" (0, 3) = Ok 199 /\ at_ (reload m) "a" (1, 0) = Ok 5 /\ at_ (reload m) "z" (1, 0) = Ok 255.
Proof. conj_vm. Qed.

(** ** C56 *)

Theorem C56_meta : forall (E : Env) (C : Cv) (T : Text), real_or_double E -> gray_range C -> gray_neutral C -> text_exact T ->
  forall m m0, reg_ok m -> reg_ok' m0 -> bytes m -> (0 < resn m)%Q -> 1 <= fst (size m) <= 2 ^ 22 -> 1 <= snd (size m) <= 2 ^ 22 ->
  exists b m' ls, toImageBundle m = Ok b /\ fromImageBundle (Some b) m0 = Ret tt m' /\
    frame m' = frame m /\ (resn m' == rne 24 (resn m))%Q /\ size m' = size m /\ veq (pos m') (fst (pos m), fst (pos m)) /\
    start m' = (0, 0) /\ stamp m' = 0 /\ basic m' = basic m0 /\
    layers m' = appended (layers m0) ls /\ Permutation ls (layers m) /\ ascending ls /\
    (forall l i, In l (layers m0) -> ~ has_layer m l -> in_range (size m) i -> value_at m' l i unknown).
Proof.
  intros E C T X GR GN TX m m0 R R0 BY RP S0 S1.
  assert (exists more, extra E more /\ (more = [] \/ more = short)) as (more & EX & MO).
  { destruct X as [X|[p ->]]; [exists []|exists short]; split; auto; intros v Hv; [cbn; now apply flipped_exact|now apply flipped_double]. }
  destruct (bundle_round E C T more X GR GN TX EX MO m m0 R R0 BY RP S0 S1)
    as (b & m' & ls & K1 & K2 & K3 & K4 & K5 & K6 & K7 & K8 & K9 & K10 & K11 & K12 & _ & K13).
  exists b, m', ls. do 9 (split; [assumption|]). auto.
Qed.
Print Assumptions C56_meta.

Example C56_case : size (reload sample) = (5, 4) /\ start sample = (3, 2) /\ start (reload sample) = (0, 0) /\
  veq (pos sample) (-1, -2)%Q /\ veq (pos (reload sample)) (-1, -1)%Q /\ layers (reload sample) = ["z"; "a"; "b"]%string.
Proof. split; [conj_vm|]. split; [conj_vm|]. split; [conj_vm|]. split; [split; vm_compute; reflexivity|]. split; [split; vm_compute; reflexivity|]. conj_vm. Qed.

(** A saved and reloaded map is not where it was, even unmoved: the cell at a
    world position holds another value. *)
Theorem C56_place_refuted : exists m p v w, start m = (0, 0) /\ geo_ok m /\
  world_value m "a" p v /\ world_value (reload m) "a" p w /\ v = 1 /\ w = 4.
Proof.
  exists sample0, (3#2, -(1#4))%Q, 1, 4. split; [reflexivity|]. split; [exact sample0_geo|]. split; [|split; [|auto]].
  - assert (value_at sample0 "a" (0, 0) 1) as (d & Hd & Hv) by (apply at_value; vm_compute; reflexivity).
    exists (0, 0), d. split; [split; vm_compute; intuition congruence|]. split; auto. split; auto. split; split; vm_compute; auto; discriminate.
  - assert (value_at (reload sample0) "a" (0, 3) 4) as (d & Hd & Hv) by (apply at_value; vm_compute; reflexivity).
    exists (0, 3), d. split; [split; vm_compute; intuition congruence|]. split; auto. split; auto. split; split; vm_compute; auto; discriminate.
Qed.
Print Assumptions C56_place_refuted.
