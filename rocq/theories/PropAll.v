(** Property C67: what every sequence of calls of the library keeps true. *)
From Coq Require Import ZArith QArith String List Bool Lia.
From Coq Require Import ZifyBool.
From Verif Require Import Base Mat GridMapMath GridIter CostMap History Inflation Converter Bundles Costmap2D Spec BaseLemmas CoreProofs CoreProofs2 CoreFinal InflateEnv PropImage PropBundle RegProofs GeoLemmas Samples.
Import ListNotations.
Open Scope Z_scope.

(** A call that changes a map or, for getSubmap, replaces it by its result. *)
Inductive call :=
| Core (o : op)
| Submap (position length : vec)
| ReadMessage (g : msg)
| ReadImage (im : image) (l : string)
| ReadBundle (b : option bundle)
| ReadCostmap (c : ros_costmap) (l : string)
| ReadWindow (c : ros_costmap) (geometry : vec) (l : string)
| Deflation (keep_inscribed : bool) (source destination : string).

Section Histories.
Context {E : Env} {C : Cv} (F : fenv) (P : pqueue).

Definition ends {A} (o : out cmap A) (m' : cmap) : Prop := (exists a, o = Ret a m') \/ (exists e, o = Exn e m').

Definition does (c : call) (m m' : cmap) : Prop :=
  match c with
  | Core o => step o m m'
  | Submap q l => exists b, getSubmap m q l = Ok (b, m')
  | ReadMessage g => ends (fromMessage g m) m'
  | ReadImage im l => ends (addLayerFromROSImage im l m) m'
  | ReadBundle b => ends (fromImageBundle b m) m'
  | ReadCostmap c l => ends (fromCostmap2DROS c l m) m'
  | ReadWindow c g l => ends (fromCostmap2DROSAtRobotPose c g l m) m'
  | Deflation k ls ld => ends (deflate k ls ld m) m'
  end.

(** All samples of an image are within their range. *)
Definition image_samples (im : image) : Prop :=
  forall p, In p (i_px im) -> px_range (if smem (i_enc im) eight_bit then 256 else 65536) p.

(** The costs handed to a call are bytes. *)
Definition byte (v : Z) : Prop := 0 <= v <= 255.
Definition fed (c : call) : Prop :=
  match c with
  | Core (OpAdd _ d) => Forall byte (mcoef d)
  | Core (OpAddValue _ v) | Core (OpAt _ _ v) | Core (OpAtPosition _ _ v) => byte v
  | Core (OpAddDataFrom o _ _ _ _) => forall l d, In (l, d) (data o) -> Forall byte (mcoef d)
  | ReadMessage g => forall a, In a (g_data g) -> Forall byte (a_data a)
  | ReadImage im _ => image_samples im
  | ReadBundle (Some b) => forall f p, In (f, p) (b_files b) -> image_samples (file_image (Some p))
  | ReadCostmap c _ | ReadWindow c _ _ => Forall byte (k_char (c_map c))
  | _ => True
  end.

(** A map and an Inflate object after any sequence of calls, beginning with a new
    map. With [limited], all costs handed in are bytes. *)
Inductive history (limited : bool) : cmap -> inflater P -> Prop :=
| h_new names : NoDup names -> history limited (new_map names) (new_inflater P)
| h_call c m o m' : history limited m o -> (limited = true -> fed c) ->
    match c with Core op => op_ok op | _ => True end -> does c m m' -> history limited m' o
| h_inflate ls ld rad comp m o m' o' : history limited m o -> (limited = true -> forall q, byte (comp q)) ->
    inflate F P ls ld rad comp o m = Ret o' m' -> history limited m' o'
| h_failed ls ld rad comp m o m' e : history limited m o -> (limited = true -> forall q, byte (comp q)) ->
    inflate F P ls ld rad comp o m = Exn e m' -> history limited m' o.

Lemma ends_post {A} (J : cmap -> Prop) (o : out cmap A) m' : ends o m' -> post J o -> J m'.
Proof. intros [[a ->]|[e ->]]; auto. Qed.

(** The costs of a converted costmap. *)
Lemma reversed_from k cells d : reversed_costs k cells = Ok d ->
  List.length d = List.length (zseq cells) /\ forall v, In v d -> In v (k_char k).
Proof.
  unfold reversed_costs. generalize (zseq cells) as l. intros l. revert d. induction l as [|x l IH]; intros d; cbn [rmap].
  - intros Q. injection Q as <-. split; [reflexivity|intros v []].
  - destruct (nth_error (k_char k) (Z.to_nat (cells - 1 - x))) as [w|] eqn:N; cbn [of_opt rbind]; [|discriminate].
    destruct (rmap _ l) as [t|e|f]; cbn [rbind]; try discriminate. intros Q. injection Q as <-.
    destruct (IH t eq_refl) as [L I]. split; [cbn; now rewrite L|]. intros v [<-|Hv]; auto. now apply nth_error_In in N.
Qed.

Lemma pres_addLayer k l : pres reg_ok' (addLayerFromCostmap2D k l).
Proof.
  intros m R. unfold addLayerFromCostmap2D, bind at 1, get_st.
  destruct (idx_eqb (size m) (k_size k)) eqn:Q; [|exact R]. cbn [negb]. apply idx_eqb_eq in Q.
  destruct (idx_eqb (start m) (0, 0)); [|exact R]. cbn [negb].
  apply post_lift; [exact R|]. intros d Hd. apply reversed_from in Hd as [L _].
  apply post_bind; [|exact R|intros u s Hs; exact Hs]. apply pres_add'.
  destruct R as (_ & R0 & R1). unfold wf_mat. cbn. rewrite L, zseq_length, Z2Nat.id by nia. rewrite Q in *. lia.
Qed.

Lemma pres_fromCostmap (RN : rnd_nonneg) c l : pres reg_ok' (fromCostmap2DROS c l).
Proof.
  unfold fromCostmap2DROS, initializeFromCostmap2D. apply pres_bind; [|intros _; apply pres_bind; [apply pres_addLayer|intros b; apply pres_if; apply pres_ret]].
  apply pres_bind; [now apply pres_setGeometry|intros _]. apply pres_modify; intros m H; now apply (reg_meta m).
Qed.

Lemma pres_fromWindow (RN : rnd_nonneg) c g l : pres reg_ok' (fromCostmap2DROSAtRobotPose c g l).
Proof.
  unfold fromCostmap2DROSAtRobotPose. apply pres_bind.
  { unfold initializeFromCostmap2DAtRobotPose. destruct (c_pose c); [|apply pres_ret].
    apply pres_bind; [apply pres_modify; intros m H; now apply (reg_meta m)|intros _].
    apply pres_bind; [apply pres_modify; intros m H; now apply (reg_meta m)|intros _].
    apply pres_bind; [now apply pres_setGeometry|intros _; apply pres_ret]. }
  intros b. apply pres_if; [apply pres_ret|]. apply pres_bind; [|intros b'; apply pres_if; apply pres_ret].
  intros m R. unfold addLayerFromCostmap2DAtRobotPose, bind at 1, get_st.
  destruct (negb _); [exact R|]. destruct (copyCostmapWindow _ _ _); [|exact R].
  apply post_bind; [apply pres_addLayer|exact R|intros u s Hs; exact Hs].
Qed.

Lemma vp_addLayer k l : Forall byte (k_char k) -> pres (vals byte) (addLayerFromCostmap2D k l).
Proof.
  intros FD m R. unfold addLayerFromCostmap2D, bind at 1, get_st.
  destruct (idx_eqb (size m) (k_size k)); [|exact R]. cbn [negb].
  destruct (idx_eqb (start m) (0, 0)); [|exact R]. cbn [negb].
  apply post_lift; [exact R|]. intros d Hd. apply reversed_from in Hd as [_ L].
  apply post_bind; [|exact R|intros u s Hs; exact Hs]. apply vp_add. cbn [mcoef].
  rewrite Forall_forall in *. auto.
Qed.

Lemma byte255 : byte 255. Proof. unfold byte; lia. Qed.
Lemma byte0 : byte 0. Proof. unfold byte; lia. Qed.

Lemma vp_fromCostmap c l : Forall byte (k_char (c_map c)) -> pres (vals byte) (fromCostmap2DROS c l).
Proof.
  intros FD. unfold fromCostmap2DROS, initializeFromCostmap2D. apply pres_bind; [|intros _; apply pres_bind; [now apply vp_addLayer|intros b; apply pres_if; apply pres_ret]].
  apply pres_bind; [apply vp_setGeometry; [exact byte255|exact byte0]|intros _]. apply pres_modify; intros m H; now apply (vals_meta byte m).
Qed.

Lemma copied_costs k a n v : In v (copyMapRegion k a n) -> In v (k_char k).
Proof.
  unfold copyMapRegion. rewrite in_flat_map. intros (y & _ & H).
  rewrite <- (firstn_skipn (Z.to_nat ((snd a + y) * fst (k_size k) + fst a)) (k_char k)). apply in_or_app. right.
  rewrite <- (firstn_skipn (Z.to_nat (fst n))). apply in_or_app. now left.
Qed.

Lemma vp_fromWindow c g l : Forall byte (k_char (c_map c)) -> pres (vals byte) (fromCostmap2DROSAtRobotPose c g l).
Proof.
  intros FD. unfold fromCostmap2DROSAtRobotPose. apply pres_bind.
  { unfold initializeFromCostmap2DAtRobotPose. destruct (c_pose c); [|apply pres_ret].
    apply pres_bind; [apply pres_modify; intros m H; now apply (vals_meta byte m)|intros _].
    apply pres_bind; [apply pres_modify; intros m H; now apply (vals_meta byte m)|intros _].
    apply pres_bind; [apply vp_setGeometry; [exact byte255|exact byte0]|intros _; apply pres_ret]. }
  intros b. apply pres_if; [apply pres_ret|]. apply pres_bind; [|intros b'; apply pres_if; apply pres_ret].
  intros m R. unfold addLayerFromCostmap2DAtRobotPose, bind at 1, get_st.
  destruct (negb _); [exact R|]. destruct (copyCostmapWindow _ _ _) as [w|] eqn:W; [|exact R].
  apply post_bind; [apply vp_addLayer|exact R|intros u s Hs; exact Hs].
  unfold copyCostmapWindow in W. destruct (worldToMap _ _); [|discriminate]. destruct (worldToMap _ _); [|discriminate].
  injection W as <-. cbn [k_char]. rewrite Forall_forall in *. intros v Hv. apply FD. now apply copied_costs in Hv.
Qed.

Lemma history_reg (RN : rnd_nonneg) b m o : history b m o -> reg_ok' m.
Proof.
  induction 1 as [names ND|c m o m' _ IH _ OK D|ls ld rad comp m o m' o' _ IH _ D|ls ld rad comp m o m' e _ IH _ D].
  - split; [now apply new_map_reg|cbn; lia].
  - destruct c; cbn [does] in D.
    + pose proof (pres_run_op RN o0 OK m IH) as K. destruct D as [D|[e D]]; now rewrite D in K.
    + destruct D as [b0 D]. now apply (getSubmap_reg RN m) in D.
    + apply (ends_post _ _ _ D). now apply pres_fromMessage.
    + apply (ends_post _ _ _ D). now apply pres_addLayerFromROSImage.
    + apply (ends_post _ _ _ D). now apply pres_fromImageBundle.
    + apply (ends_post _ _ _ D). now apply pres_fromCostmap.
    + apply (ends_post _ _ _ D). now apply pres_fromWindow.
    + apply (ends_post _ _ _ D). now apply pres_deflate.
  - pose proof (pres_inflate F P ls ld rad comp o m IH) as K. now rewrite D in K.
  - pose proof (pres_inflate F P ls ld rad comp o m IH) as K. now rewrite D in K.
Qed.

Lemma pixel_byte (R : gray_range C) enc p : px_range (if smem enc eight_bit then 256 else 65536) p -> In enc (eight_bit ++ sixteen_bit) ->
  byte (pixel_cost enc p).
Proof.
  intros PR HE. destruct R as [R8 R16].
  assert (D8 : forall g, 0 <= g < 256 -> byte (darkness 256 g)).
  { intros g Hg. unfold byte, darkness. split; [apply Z.div_pos; lia|]. apply Z.div_le_upper_bound; lia. }
  assert (D16 : forall g, 0 <= g < 65536 -> byte (darkness 65536 g)).
  { intros g Hg. unfold byte, darkness. split; [apply Z.div_pos; lia|]. apply Z.div_le_upper_bound; lia. }
  assert (U : byte unknown) by (unfold byte, unknown; lia).
  apply enc_cases in HE. destruct HE as [->|[->|[->|[->|[->| ->]]]]]; destruct PR as (B & G & D & A); cbn in B, G, D, A;
    unfold pixel_cost; cbn [String.eqb Ascii.eqb Bool.eqb].
  - destruct (_ <? _); auto.
  - auto.
  - auto.
  - destruct (_ <? _); auto. apply D16, as_read_range. auto.
  - apply D16, as_read_range. auto.
  - apply D16, as_read_range. auto.
Qed.

Lemma samples_vals (X : real_or_double E) (R : gray_range C) im : image_samples im -> image_vals byte im.
Proof.
  intros S depth p v D _ IP K.
  assert (HE : In (i_enc im) (eight_bit ++ sixteen_bit)).
  { unfold depth_of, BGRA8, BGR8, MONO8, BGRA16, BGR16, MONO16 in D. cbn [In app eight_bit sixteen_bit].
    repeat match type of D with context [String.eqb ?a ?b] => destruct (String.eqb_spec a b) as [->|]; [tauto|] end. discriminate. }
  destruct (px_cost_ok E C X R _ HE) as (depth' & D' & PC). rewrite D in D'. injection D' as <-.
  specialize (PC p (S p IP)). rewrite K in PC. subst v. apply pixel_byte; auto.
Qed.

Lemma table_vals ls ld rad comp (o o' : inflater P) m m' : (forall q, byte (comp q)) -> (forall i j, byte (c_cost (if_cache o) i j)) ->
  inflate F P ls ld rad comp o m = Ret o' m' -> forall i j, byte (c_cost (if_cache o') i j).
Proof.
  intros W T. unfold inflate. destruct (get m ls); try discriminate. destruct (add ld _ m) as [u m1|e m1|f]; try discriminate.
  fold (table_of F rad comp o m1). destruct (table_of F rad comp o m1) as [c|e|f] eqn:TB; try discriminate.
  destruct (bind _ _ _) as [v st|e st|f]; try discriminate. intros Q. injection Q as <- _. cbn [if_cache].
  unfold table_of in TB. destruct (cell_radius rad m1) as [r|e|f]; try discriminate. cbn in TB.
  destruct (r =? _); [injection TB as <-; apply T|]. unfold compute_caches in TB. destruct (_ <? _); [|discriminate]. injection TB as <-. intros i j. apply W.
Qed.

Lemma history_vals (X : real_or_double E) (R : gray_range C) m o : history true m o ->
  vals byte m /\ forall i j, byte (c_cost (if_cache o) i j).
Proof.
  pose proof byte255 as B5. pose proof byte0 as B0.
  induction 1 as [names ND|c m o m' _ [IH IC] FD OK D|ls ld rad comp m o m' o' _ [IH IC] FD D|ls ld rad comp m o m' e _ [IH IC] FD D].
  - split; [now apply vals_new|]. intros; exact B0.
  - split; [|exact IC]. specialize (FD eq_refl). destruct c; cbn [does] in D.
    + assert (OV : op_vals byte o0).
      { destruct o0; cbn [fed op_vals] in *; auto. unfold vals. rewrite Forall_forall. intros [l d] Hd. apply (FD l d Hd). }
      pose proof (vp_run_op byte B5 B0 o0 OV m IH) as K. destruct D as [D|[e D]]; now rewrite D in K.
    + destruct D as [b0 D]. now apply (vals_getSubmap byte B5 B0 m) in D.
    + apply (ends_post _ _ _ D). apply vp_fromMessage; auto. rewrite Forall_forall. exact FD.
    + apply (ends_post _ _ _ D). apply vp_addLayerFromROSImage; auto. now apply samples_vals.
    + apply (ends_post _ _ _ D). apply vp_fromImageBundle; auto. intros bu f p -> G. apply samples_vals; auto.
      apply (FD f). now apply Samples.aget_In in G.
    + apply (ends_post _ _ _ D). now apply vp_fromCostmap.
    + apply (ends_post _ _ _ D). now apply vp_fromWindow.
    + apply (ends_post _ _ _ D). now apply vp_deflate.
  - pose proof (vp_inflate byte F P ls ld rad comp o (FD eq_refl) IC m IH) as K. rewrite D in K. split; [exact K|].
    eapply table_vals; [exact (FD eq_refl)|exact IC|exact D].
  - pose proof (vp_inflate byte F P ls ld rad comp o (FD eq_refl) IC m IH) as K. rewrite D in K. split; [exact K|exact IC].
Qed.
End Histories.

(** Whatever is called, the layer list and the stored layers agree and every
    layer has a cost in every cell. *)
Theorem C67_registry : forall (E : Env) (C : Cv) (F : fenv) (P : pqueue) m o, rnd_nonneg -> history F P false m o ->
  NoDup (layers m) /\ (forall l, In l (layers m) <-> exists_layer m l = true) /\
  (forall l d, get m l = Ok d -> mrows d = fst (size m) /\ mcols d = snd (size m)) /\
  (forall l i, In l (layers m) -> in_range (size m) i -> exists v, at_ m l i = Ok v).
Proof.
  intros E C F P m o RN H. apply history_reg in H as [R Z]; auto.
  split; [apply R|]. split; [intros; now apply akeys_has|]. split.
  - intros l d Hd. apply get_has in Hd. apply (r_mat _ R) in Hd. tauto.
  - intros l i Hl Hi. apply (akeys_has _ _ R), exists_has in Hl.
    destruct (reg_value m l i R Hl Hi) as [v Hv]. exists v. now apply at_value.
Qed.
Print Assumptions C67_registry.

(** No conversion, merge, interpolation or inflation makes a cost that is not a
    byte: reading the cells as unsigned char never loses anything. *)
Theorem C67_bytes : forall (E : Env) (C : Cv) (F : fenv) (P : pqueue) m o, real_or_double E -> gray_range C -> history F P true m o ->
  forall l i v, at_ m l i = Ok v -> 0 <= v <= 255.
Proof.
  intros E C F P m o X R H l i v A. apply (history_vals F P X R) in H as [H _]. now apply (vals_at byte m l i v) in A.
Qed.
Print Assumptions C67_bytes.

Definition double_wrap : Env := binary64 BWrap.
Definition opencv_little : Cv := opencv true.

(** A history: a geometry, an image, a lethal cell, an inflation, a deflation and
    a submap. *)
Definition face : image := Image "mono8" 4 4 true (map (fun k => Px (16 * k) 0 0 0) (zseq 16)).
Definition near (d : Q) : Z := if Qeq_bool d 0 then 254 else 253.

Section Story.
Local Existing Instance double_wrap.
Local Existing Instance opencv_little.

Definition story : option (cmap * inflater (list_queue true)) :=
  match setGeometry (4, 4)%Q 1 (0, 0)%Q (new_map ["z"%string]) with Ret _ m1 =>
  match addLayerFromROSImage face "a" m1 with Ret _ m2 =>
  match at_set "a" (1, 1) 254 m2 with Ret _ m3 =>
  match inflate float_env (list_queue true) "a" "b" 2 near (new_inflater _) m3 with Ret o m4 =>
  match deflate true "b" "c" m4 with Ret _ m5 =>
  match getSubmap m5 (1, 1)%Q (2, 2)%Q with Ok (true, m6) => Some (m6, o)
  | _ => None end | _ => None end | _ => None end | _ => None end | _ => None end | _ => None end.

Example C67_case : exists m o, story = Some (m, o) /\ history float_env (list_queue true) true m o /\
  layers m = ["z"; "a"; "b"; "c"]%string /\ map (fun l => at_ m l (1, 0)) (layers m) = [Ok 255; Ok 190; Ok 253; Ok 253].
Proof.
  assert (H : forall m o, story = Some (m, o) -> history float_env (list_queue true) true m o).
  { unfold story. intros m o.
    lazymatch goal with |- context [setGeometry ?x0 ?x1 ?x2 ?x3] => destruct (setGeometry x0 x1 x2 x3) as [[] m1| |] eqn:H1 end; [|discriminate|discriminate].
    lazymatch goal with |- context [addLayerFromROSImage ?x0 ?x1 ?x2] => destruct (addLayerFromROSImage x0 x1 x2) as [b m2| |] eqn:H2 end; [|discriminate|discriminate].
    lazymatch goal with |- context [at_set ?x0 ?x1 ?x2 ?x3] => destruct (at_set x0 x1 x2 x3) as [[] m3| |] eqn:H3 end; [|discriminate|discriminate].
    lazymatch goal with |- context [inflate ?x0 ?x1 ?x2 ?x3 ?x4 ?x5 ?x6 ?x7] => destruct (inflate x0 x1 x2 x3 x4 x5 x6 x7) as [o' m4| |] eqn:H4 end; [|discriminate|discriminate].
    lazymatch goal with |- context [deflate ?x0 ?x1 ?x2 ?x3] => destruct (deflate x0 x1 x2 x3) as [[] m5| |] eqn:H5 end; [|discriminate|discriminate].
    lazymatch goal with |- context [getSubmap ?x0 ?x1 ?x2] => destruct (getSubmap x0 x1 x2) as [[[|] m6]| |] eqn:H6 end; [|discriminate|discriminate|discriminate]. intros Q. injection Q as -> ->.
    apply (h_call _ _ _ (Submap (1, 1)%Q (2, 2)%Q) m5); [|now intros|exact I|now exists true].
    apply (h_call _ _ _ (Deflation true "b" "c") m4); [|now intros|exact I|left; now exists tt].
    apply (h_inflate _ _ _ "a" "b" 2 near m3 (new_inflater _)); [|intros _ q; unfold near, byte; destruct (Qeq_bool q 0); lia|exact H4].
    apply (h_call _ _ _ (Core (OpAt "a" (1, 1) 254)) m2); [|intros _; cbn; unfold byte; lia|exact I|left; exact H3].
    apply (h_call _ _ _ (ReadImage face "a") m1); [| |exact I|left; exists b; exact H2].
    - apply (h_call _ _ _ (Core (OpSetGeometry (4, 4)%Q 1 (0, 0)%Q)) (new_map ["z"%string])); [|now intros|exact I|left; exact H1].
      constructor. repeat constructor. now intros [].
    - intros _ p Hp. unfold face in Hp. cbn [i_px] in Hp. apply in_map_iff in Hp as (k & <- & Hk). apply In_zseq in Hk.
      unfold px_range. change (smem (i_enc face) eight_bit) with true. cbn [p_b p_g p_r p_a]. lia. }
  assert (K : match story with Some (m, o) => layers m = ["z"; "a"; "b"; "c"]%string /\
    map (fun l => at_ m l (1, 0)) (layers m) = [Ok 255; Ok 190; Ok 253; Ok 253] | None => False end) by (vm_compute; auto).
  destruct story as [[m o]|] eqn:S; [|contradiction]. exists m, o. split; [reflexivity|]. split; [now apply H|exact K].
Qed.

(** A window of a costmap around the robot replaces the contents of a map. *)
Definition scanned : ros_costmap := RosCostmap (Costmap2D (4, 4) 1 (0, 0)%Q (zseq 16)) "odom" (Some (2, 2)%Q) 5.

Example C67_costmap_case : exists m, fromCostmap2DROSAtRobotPose scanned (2, 2)%Q "c" (new_map ["a"%string]) = Ret true m /\
  history float_env (list_queue true) true m (new_inflater _) /\
  layers m = ["a"; "c"]%string /\ map (fun i => at_ m "c" i) [(0, 0); (1, 0); (0, 1); (1, 1)] = [Ok 10; Ok 9; Ok 6; Ok 5].
Proof.
  destruct (fromCostmap2DROSAtRobotPose scanned (2, 2)%Q "c" (new_map ["a"%string])) as [b m|e m|f] eqn:H; [|vm_compute in H; discriminate..].
  exists m. assert (b = true) as -> by (vm_compute in H; congruence). split; [reflexivity|]. split.
  - apply (h_call _ _ _ (ReadWindow scanned (2, 2)%Q "c") (new_map ["a"%string])); [|intros _|exact I|left; now exists true].
    + constructor. repeat constructor. now intros [].
    + cbn [fed scanned c_map k_char]. rewrite Forall_forall. intros v Hv. apply In_zseq in Hv. unfold byte. lia.
  - vm_compute in H. injection H as <-. split; vm_compute; reflexivity.
Qed.
End Story.
