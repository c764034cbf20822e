(** Property C72: loading an image bundle that somebody wrote by hand. *)
From Coq Require Import ZArith QArith Qround Qabs Ascii String List Bool Lia Lqa Sorted Permutation.
From Verif Require Import Base Mat GridMapMath GridIter CostMap Converter Bundles Spec ConvertSpec BaseLemmas GeoLemmas CoreProofs CoreProofs2 CoreFinal IterProofs MoveProofs AddDataProofs FloatLemmas FloatMono MessageProofs PropMessage PropGrid PropImage PropBundle RegProofs Samples.
Import ListNotations.
Open Scope Z_scope.

(** ** Specification *)

(** No key is missing. *)
Record complete (y : yaml) : Prop :=
  { k_frame : y_frame y <> None; k_cx : y_cx y <> None; k_cy : y_cy y <> None; k_resn : y_resn y <> None;
    k_nx : y_nx y <> None; k_ny : y_ny y <> None;
    k_layers : forall e, In e (y_layers y) -> fst e <> None /\ snd e <> None }.

(** The first entry for layer l names file f. *)
Inductive names : list (option string * option string) -> string -> string -> Prop :=
| names_here l f t : names ((Some l, Some f) :: t) l f
| names_later l f l' f' t : l <> l' -> names t l f -> names ((Some l', f') :: t) l f.

(** What a cell shows of a file, on a map with n cells: unknown if the file is
    missing or of another size, and else the cost of the pixel. *)
Inductive shows {C : Cv} (n : idx) : option png -> idx -> Z -> Prop :=
| shows_missing i : shows n None i unknown
| shows_misfit p i : (f_rows p, f_cols p) <> n -> shows n (Some p) i unknown
| shows_pixel p i q : (f_rows p, f_cols p) = n -> nth_error (f_px p) (Z.to_nat (fst i * f_cols p + snd i)) = Some q ->
    shows n (Some p) i (pixel_cost (if (f_channels p =? 4)%Z then "bgra8" else if (f_channels p =? 3)%Z then "bgr8" else "mono8")%string q).

(** As many pixels as rows and columns demand, each of 8-bit values. *)
Definition png_ok (p : png) : Prop :=
  (f_channels p = 1 \/ f_channels p = 3 \/ f_channels p = 4) /\
  Z.of_nat (length (f_px p)) = f_rows p * f_cols p /\ forall q, In q (f_px p) -> px_range 256 q.

(** ** The layers of the yaml file *)

Lemma compare_refl s : String.compare s s = Eq.
Proof. induction s as [|c s IH]; cbn; auto. unfold Ascii.compare. rewrite N.compare_refl. exact IH. Qed.

Lemma compare_trans a : forall b c, String.compare a b = Lt -> String.compare b c = Lt -> String.compare a c = Lt.
Proof.
  induction a as [|x a IH]; intros [|y b] [|z c]; cbn [String.compare]; try discriminate; auto. unfold Ascii.compare.
  destruct (N.compare_spec (N_of_ascii x) (N_of_ascii y)), (N.compare_spec (N_of_ascii y) (N_of_ascii z)), (N.compare_spec (N_of_ascii x) (N_of_ascii z));
    try discriminate; try lia; auto. apply IH.
Qed.

(** A key before all keys of an ascending list is not in it. *)
Lemma before_all {A} k k' (v' : A) t : ascending (map fst ((k', v') :: t)) -> String.compare k k' = Lt -> ~ In k (map fst ((k', v') :: t)).
Proof.
  unfold ascending. cbn [map fst In]. intros S K [->|H]; [rewrite compare_refl in K; discriminate|].
  apply Sorted_StronglySorted in S.
  - inversion S as [|? ? S1 S2]; subst. rewrite Forall_forall in S2. specialize (S2 k H). unfold String.ltb in S2.
    rewrite String.compare_antisym, K in S2. discriminate.
  - unfold String.ltb. intros a b c. destruct (String.compare a b) eqn:H1, (String.compare b c) eqn:H2; try discriminate.
    now rewrite (compare_trans a b c).
Qed.

Lemma map_insert_present {A} k (v : A) l : ascending (map fst l) -> In k (map fst l) -> map_insert k v l = l.
Proof.
  induction l as [|[k' v'] t IH]; intros S H; [easy|]. cbn [map_insert]. destruct (String.compare k k') eqn:K; auto.
  - exfalso. eapply before_all; eauto.
  - f_equal. cbn [map fst] in S, H. inversion S; subst. apply IH; auto. destruct H as [->|H]; auto. rewrite compare_refl in K. discriminate.
Qed.

Lemma yaml_layers_first es : forall acc, ascending (map fst acc) -> (forall e, In e es -> fst e <> None /\ snd e <> None) ->
  exists r, yaml_layers es acc = Ok r /\ ascending (map fst r) /\
    forall l f, In (l, f) r <-> In (l, f) acc \/ ~ In l (map fst acc) /\ names es l f.
Proof.
  induction es as [|[[k|] [v|]] t IH]; intros acc S H; cbn [yaml_layers].
  - exists acc. split; auto. split; auto. intros l f. split; auto. intros [K|[_ K]]; auto. inversion K.
  - assert (HT : forall e, In e t -> fst e <> None /\ snd e <> None) by (intros e He; apply H; now right).
    destruct (in_dec string_dec k (map fst acc)) as [I|I].
    + rewrite map_insert_present by auto. destruct (IH acc S HT) as (r & Y & S2 & R). exists r. split; auto. split; auto.
      intros l f. rewrite R. split; (intros [K|[K1 K2]]; [now left|right; split; auto]).
      * constructor; auto. congruence.
      * inversion K2; subst; auto. contradiction.
    + destruct (IH (map_insert k v acc)) as (r & Y & S2 & R); auto using map_insert_sorted.
      exists r. split; auto. split; auto. intros l f. rewrite R. pose proof (map_insert_new k v acc I) as P.
      assert (P1 : In (l, f) (map_insert k v acc) <-> (k, v) = (l, f) \/ In (l, f) acc).
      { split; intros K; [apply (Permutation_in _ P) in K; exact K|apply (Permutation_in _ (Permutation_sym P)); exact K]. }
      assert (P2 : In l (map fst (map_insert k v acc)) <-> k = l \/ In l (map fst acc)).
      { apply (Permutation_map fst) in P. cbn [map fst] in P.
        split; intros K; [apply (Permutation_in _ P) in K; exact K|apply (Permutation_in _ (Permutation_sym P)); exact K]. }
      rewrite P1, P2. split.
      * intros [[K|K]|[K1 K2]]; [|now left|].
        -- injection K as <- <-. right. split; auto. constructor.
        -- right. split; [tauto|]. constructor; auto.
      * intros [K|[K1 K2]]; [tauto|]. inversion K2; subst; [tauto|]. right. split; auto. intros [->|?]; tauto.
  - exfalso. now destruct (H (Some k, None) (or_introl eq_refl)).
  - exfalso. now destruct (H (None, Some v) (or_introl eq_refl)).
  - exfalso. now destruct (H (None, None) (or_introl eq_refl)).
Qed.

Lemma yaml_layers_incomplete es e : In e es -> fst e = None \/ snd e = None -> forall acc, yaml_layers es acc = Throw LogicError.
Proof.
  induction es as [|[[k|] [v|]] t IH]; intros H K acc; cbn [yaml_layers]; auto; [easy|].
  destruct H as [<-|H]; [destruct K; discriminate|]. now apply IH.
Qed.

(** ** The files *)

Lemma file_shown (E : Env) (C : Cv) (fo : option png) l m : real_or_double E -> gray_range C -> reg_ok' m -> in_range (size m) (start m) ->
  0 < fst (size m) -> (forall p, fo = Some p -> png_ok p) ->
  exists b m', addLayerFromROSImage (file_image fo) l m = Ret b m' /\ reg_ok' m' /\ only_layer l m m' /\
    forall i, in_range (size m) i -> exists v, shows (size m) fo i v /\ value_at m' l i v.
Proof.
  intros X GR R G SP PO.
  assert (HE : In (i_enc (file_image fo)) (eight_bit ++ sixteen_bit)).
  { destruct fo as [p|]; cbn [file_image i_enc]; [|cbn; auto]. destruct (f_channels p =? 3), (f_channels p =? 4); cbn; auto. }
  assert (HS : i_sound (file_image fo) = true) by now destruct fo.
  pose proof (pres_addLayerFromROSImage (file_image fo) l m R) as RA.
  assert (DEC : (i_height (file_image fo), i_width (file_image fo)) = size m \/ (i_height (file_image fo), i_width (file_image fo)) <> size m).
  { destruct (size m) as [a b]. destruct (Z.eq_dec (i_height (file_image fo)) a), (Z.eq_dec (i_width (file_image fo)) b); subst; auto; right; congruence. }
  destruct DEC as [SZ|SZ].
  - destruct fo as [p|]; [|cbn [file_image i_height i_width] in SZ; rewrite <- SZ in SP; cbn in SP; lia].
    destruct (PO p eq_refl) as (CH & LN & PX).
    assert (IE : i_enc (file_image (Some p)) = (if (f_channels p =? 4)%Z then "bgra8" else if (f_channels p =? 3)%Z then "bgr8" else "mono8")%string).
    { cbn [file_image i_enc]. destruct CH as [->|[->| ->]]; reflexivity. }
    destruct (loaded_ok E C (file_image (Some p)) l m X GR G R HE HS SZ) as (m' & A & R' & O & PE & PV).
    { split; [exact LN|]. intros q Hq. assert (smem (i_enc (file_image (Some p))) eight_bit = true) as ->; [|now apply PX].
      rewrite IE. destruct CH as [->|[->| ->]]; reflexivity. }
    exists true, m'. split; auto. split; auto. split; auto. intros i Hi. destruct (PE i Hi) as [q Hq]. eexists. split; [|exact (PV i q Hi Hq)].
    rewrite IE. apply shows_pixel; [exact SZ|exact Hq].
  - destruct (C53_mismatch E C (file_image fo) l m R HE HS SZ) as (m' & A & O & V). rewrite A in RA. cbn [post] in RA.
    exists false, m'. split; auto. split; auto. split; auto. intros i Hi. exists unknown. split; auto.
    destruct fo as [p|]; [apply shows_misfit; exact SZ|apply shows_missing].
Qed.

Lemma files_shown (E : Env) (C : Cv) files : real_or_double E -> gray_range C -> (forall f p, aget files f = Some p -> png_ok p) -> forall ls m,
  NoDup (map fst ls) -> reg_ok' m -> in_range (size m) (start m) -> 0 < fst (size m) ->
  exists m', mfor ls (add_file files) m = Ret tt m' /\ reg_ok' m' /\ same_meta m m' /\
    layers m' = appended (layers m) (map fst ls) /\
    (forall l i v, ~ In l (map fst ls) -> (value_at m' l i v <-> value_at m l i v)) /\
    (forall l f i, In (l, f) ls -> in_range (size m) i -> exists v, shows (size m) (aget files f) i v /\ value_at m' l i v).
Proof.
  intros X GR PO. induction ls as [|[l f] t IH]; intros m ND R G SP.
  - exists m. split; [reflexivity|]. split; auto. split; [apply same_meta_refl|]. split; [reflexivity|]. split; [tauto|]. now intros.
  - inversion ND as [|? ? N1 N2]; subst.
    destruct (file_shown E C (aget files f) l m X GR R G SP (PO f)) as (b & m1 & A & R1 & O & V1).
    pose proof O as (M1 & L1 & O1). pose proof M1 as (_ & _ & _ & _ & _ & _ & S1 & T1).
    destruct (IH m1) as (m2 & B & R2 & M2 & L2 & O2 & V2); auto; [now rewrite <- S1, <- T1|now rewrite <- S1|].
    exists m2. cbn [mfor]. unfold add_file at 1, bind. cbn [fst snd]. rewrite A. cbn [ret]. split; [exact B|]. split; auto.
    split; [eapply same_meta_trans; eauto|]. cbn [map fst appended]. split; [now rewrite L2, L1|]. split.
    + intros l' i v N. cbn [In] in N. rewrite O2 by tauto. apply O1. intros ->. tauto.
    + intros l' f' i [H|H] Hi.
      * injection H as <- <-. destruct (V1 i Hi) as (v & K1 & K2). exists v. split; auto. now apply O2.
      * rewrite S1 in Hi |- *. eapply V2; eauto.
Qed.

Lemma ascending_NoDup ls : ascending ls -> NoDup ls.
Proof.
  intros S. induction ls as [|k t IH]; constructor.
  - destruct t as [|k2 t2]; [easy|]. unfold ascending in S. inversion S as [|? ? S1 S2]; subst. inversion S2 as [|? ? S3]; subst.
    intros H. apply (before_all k k2 tt (map (fun x => (x, tt)) t2)); cbn [map fst].
    + rewrite map_map. cbn [fst]. rewrite map_id. exact S1.
    + unfold String.ltb in S3. destruct (String.compare k k2); discriminate || reflexivity.
    + rewrite map_map. cbn [fst]. rewrite map_id. exact H.
  - apply IH. unfold ascending in *. now inversion S.
Qed.

(** ** C72 *)

(** A bundle that cannot be opened or lacks a key changes nothing. *)
Theorem C72_incomplete : forall (E : Env) (C : Cv) b m,
  fromImageBundle None m = Exn BadFile m /\ (~ complete (b_yaml b) -> fromImageBundle (Some b) m = Exn LogicError m).
Proof.
  intros E C b m. split; [reflexivity|]. intros NC. unfold fromImageBundle.
  destruct (y_frame (b_yaml b)) eqn:K1; [|reflexivity]. destruct (y_cx (b_yaml b)) eqn:K2; [|reflexivity].
  destruct (y_cy (b_yaml b)) eqn:K3; [|reflexivity]. destruct (y_resn (b_yaml b)) eqn:K4; [|reflexivity].
  destruct (y_nx (b_yaml b)) eqn:K5; [|reflexivity]. destruct (y_ny (b_yaml b)) eqn:K6; [|reflexivity].
  destruct (existsb (fun e => match e with (Some _, Some _) => false | _ => true end) (y_layers (b_yaml b))) eqn:X.
  - apply existsb_exists in X as (e & He & HX). unfold bind at 1. rewrite (yaml_layers_incomplete _ e He); [reflexivity|].
    destruct e as [[|] [|]]; auto. discriminate.
  - exfalso. apply NC. constructor; try congruence. intros e He.
    destruct e as [[k|] [v|]]; cbn [fst snd]; [split; discriminate| | |];
      (assert (HX : existsb (fun e => match e with (Some _, Some _) => false | _ => true end) (y_layers (b_yaml b)) = true)
         by (apply existsb_exists; eexists; split; [exact He|reflexivity]); congruence).
Qed.
Print Assumptions C72_incomplete.

(** A map without cells, or with a resolution that is not positive, stops at the
    assertions of setGeometry. *)
Theorem C72_empty : forall (E : Env) (C : Cv) b m r nx ny, complete (b_yaml b) ->
  y_resn (b_yaml b) = Some r -> y_nx (b_yaml b) = Some nx -> y_ny (b_yaml b) = Some ny ->
  (r <= 0)%Q \/ nx = 0 \/ ny = 0 -> fromImageBundle (Some b) m = Flt AssertFailed.
Proof.
  intros E C b m r nx ny K HR HX HY H. unfold fromImageBundle.
  destruct (y_frame (b_yaml b)) eqn:K1; [|now destruct (k_frame _ K)]. destruct (y_cx (b_yaml b)) eqn:K2; [|now destruct (k_cx _ K)].
  destruct (y_cy (b_yaml b)) eqn:K3; [|now destruct (k_cy _ K)]. rewrite HR, HX, HY.
  destruct (yaml_layers_first (y_layers (b_yaml b)) []) as (ls & YL & _); [constructor|apply K|].
  unfold bind at 1. rewrite YL. cbn [lift]. unfold bind at 1. rewrite setGeometry_assert; [reflexivity|]. cbn [fst snd]. intros (A & B & D).
  destruct H as [H|[->| ->]].
  - assert (rne 24 r <= rne 24 0)%Q by (apply rne_mono; auto; lia). change (rne 24 0) with 0%Q in H0. unfold rnd32 in D. lra.
  - assert (Z : (rnd32 (rnd32 r * rnd32 (inject_Z 0)) == rnd32 0)%Q) by (apply rne_comp; change (rnd32 (inject_Z 0)) with 0%Q; ring).
    change (rnd32 0) with 0%Q in Z. lra.
  - assert (Z : (rnd32 (rnd32 r * rnd32 (inject_Z 0)) == rnd32 0)%Q) by (apply rne_comp; change (rnd32 (inject_Z 0)) with 0%Q; ring).
    change (rnd32 0) with 0%Q in Z. lra.
Qed.
Print Assumptions C72_empty.

(** Any other bundle is loaded: the layers are those of the yaml file, in the
    order of their names, and of several entries for a layer the first counts. *)
Theorem C72_loaded : forall (E : Env) (C : Cv), real_or_double E -> gray_range C -> forall b m0 fr cx cy r nx ny,
  complete (b_yaml b) -> y_frame (b_yaml b) = Some fr -> y_cx (b_yaml b) = Some cx -> y_cy (b_yaml b) = Some cy ->
  y_resn (b_yaml b) = Some r -> y_nx (b_yaml b) = Some nx -> y_ny (b_yaml b) = Some ny ->
  (0 < r)%Q -> 1 <= nx <= 2 ^ 22 -> 1 <= ny <= 2 ^ 22 -> reg_ok' m0 -> (forall f p, aget (b_files b) f = Some p -> png_ok p) ->
  exists m' ls, fromImageBundle (Some b) m0 = Ret tt m' /\
    frame m' = fr /\ pos m' = (cx, cy) /\ resn m' = rne 24 r /\ size m' = (nx, ny) /\ start m' = (0, 0) /\ stamp m' = 0 /\ basic m' = basic m0 /\
    layers m' = appended (layers m0) ls /\ ascending ls /\ (forall l, In l ls <-> exists f, names (y_layers (b_yaml b)) l f) /\
    (forall l f i, names (y_layers (b_yaml b)) l f -> in_range (nx, ny) i -> exists v, shows (nx, ny) (aget (b_files b) f) i v /\ value_at m' l i v) /\
    (forall l i, In l (layers m0) -> ~ In l ls -> in_range (nx, ny) i -> value_at m' l i unknown).
Proof.
  intros E C X GR b m0 fr cx cy r nx ny K H1 H2 H3 H4 H5 H6 RP N0 N1 R0 PO. unfold fromImageBundle. rewrite H1, H2, H3, H4, H5, H6.
  destruct (yaml_layers_first (y_layers (b_yaml b)) []) as (ls & YL & AS & NM); [constructor|apply K|].
  destruct (float_count E X r nx RP N0) as [P0 C0]. destruct (float_count E X r ny RP N1) as [P1 C1].
  assert (SP : (0 < rnd32 r)%Q).
  { unfold rnd32. destruct (rne_binade 24 _ ltac:(lia) RP) as [A _]. pose proof (pow2_pos (Qlog2 r)). lra. }
  unfold bind at 1. rewrite YL. cbn [lift]. unfold bind at 1.
  match goal with |- context [setGeometry ?a ?b ?c m0] => set (L := a); set (s := b); set (p := c) end.
  pose proof (pres_setGeometry (rod_nonneg E X) L s p m0 R0) as PR.
  rewrite (setGeometry_any L s p m0) in * by assumption.
  assert (CO : cells_of L s = (nx, ny)). { unfold cells_of, L, s. cbn [fst snd]. now rewrite C0, C1. }
  rewrite CO in *. unfold bind at 1, setFrameId, modify at 1. unfold bind at 1, resetTimestamp, modify at 1.
  cbn [set_frame set_stamp frame stamp data layers basic len resn pos size start].
  match goal with |- context [mfor _ _ ?x] => set (m1 := x) end. cbn [post] in PR.
  assert (R1 : reg_ok' m1) by (eapply reg_meta; [| | |exact PR]; reflexivity).
  destruct (files_shown E C (b_files b) X GR PO ls m1) as (m' & F & R' & M & LA & VO & VN).
  - now apply ascending_NoDup.
  - exact R1.
  - unfold m1, in_range. cbn. lia.
  - unfold m1. cbn. lia.
  - exists m', (map fst ls). split; [exact F|].
    destruct M as (J1 & J2 & J3 & J4 & J5 & J6 & J7 & J8). unfold m1 in J1, J2, J3, J4, J5, J6, J7, J8. cbn in J1, J2, J3, J4, J5, J6, J7, J8.
    unfold p, s, rnd32 in *. do 7 (split; [symmetry; assumption|]). split; [exact LA|]. split; [exact AS|].
    assert (NM' : forall l f, In (l, f) ls <-> names (y_layers (b_yaml b)) l f). { intros l f. rewrite NM. cbn [In map]. tauto. }
    split; [|split].
    + intros l. split.
      * intros H. apply in_map_iff in H as ([l' f] & <- & H). exists f. now apply NM'.
      * intros [f H]. apply NM' in H. apply in_map_iff. now exists (l, f).
    + intros l f i H Hi. apply NM' in H. apply (VN l f i H Hi).
    + intros l i Hl NH Hi. apply VO; auto.
      destruct R0 as [R0 _]. apply (r_same _ R0), BaseLemmas.aget_In in Hl as [d Hd]. exists (mconst nx ny NO_INFORMATION).
      split; [|apply mget_mconst; apply Hi]. unfold m1. cbn [data fst snd].
      etransitivity; [apply (aget_map (fun _ => mconst nx ny NO_INFORMATION))|now rewrite Hd].
Qed.
Print Assumptions C72_loaded.

(** Layer "b" before "a", with a second entry for "b"; "c" has no file and "d" a
    file of another size. *)
Definition hand : bundle :=
  Bundle (Yaml (Some "map"%string) (Some 1%Q) (Some 2%Q) (Some (1#10)) (Some 2) (Some 1)
      [(Some "b", Some "one.png"); (Some "a", Some "two.png"); (Some "b", Some "two.png"); (Some "d", Some "big.png"); (Some "c", Some "none.png")]%string)
    [("one.png"%string, Png 1 2 1 [Px 0 0 0 0; Px 255 0 0 0]); ("two.png"%string, Png 4 2 1 [Px 9 9 9 0; Px 128 128 128 255]);
     ("big.png"%string, Png 1 2 2 [Px 0 0 0 0; Px 0 0 0 0; Px 0 0 0 0; Px 0 0 0 0])].
Definition loaded72 : cmap := after (fromImageBundle (E := binary64 BWrap) (C := opencv true) (Some hand)) (new_map ["z"%string]).

Example C72_case : complete (b_yaml hand) /\ (forall f p, aget (b_files hand) f = Some p -> png_ok p) /\
  names (y_layers (b_yaml hand)) "b" "one.png" /\ ~ names (y_layers (b_yaml hand)) "b" "two.png" /\
  layers loaded72 = ["z"; "a"; "b"; "c"; "d"]%string /\ size loaded72 = (2, 1) /\ pos loaded72 = (1, 2)%Q /\ frame loaded72 = "map"%string /\
  map (fun l => (at_ loaded72 l (0, 0), at_ loaded72 l (1, 0))) (layers loaded72) =
    [(Ok 255, Ok 255); (Ok 255, Ok 127); (Ok 254, Ok 0); (Ok 255, Ok 255); (Ok 255, Ok 255)].
Proof.
  split. { constructor; try (cbn; discriminate). cbn [b_yaml hand y_layers In]. intuition (subst; discriminate). }
  split. { intros f p H. unfold hand in H. cbn [b_files aget] in H.
    repeat match type of H with context [String.eqb ?a ?b] => destruct (String.eqb a b) end; [..|discriminate]; injection H as <-;
      (split; [cbn; tauto|]; split; [reflexivity|]; cbn [f_px In]; intros q Hq; intuition (subst; unfold px_range; cbn; lia)). }
  split; [constructor|]. split.
  { intros H. unfold hand in H. cbn [b_yaml y_layers] in H. inversion H; subst. tauto. }
  conj_vm.
Qed.

Example C72_incomplete_case :
  let y := Yaml (Some "map"%string) (Some 1%Q) (Some 2%Q) (Some (1#10)) (Some 2) (Some 1) [(Some "b", Some "one.png"); (None, Some "two.png")]%string in
  ~ complete y /\ fromImageBundle (E := binary64 BWrap) (C := opencv true) (Some (Bundle y [])) sample = Exn LogicError sample.
Proof.
  intros y. assert (N : ~ complete y). { intros K. destruct (k_layers _ K (None, Some "two.png"%string)) as [H _]; [cbn; auto|]. now apply H. }
  split; [exact N|]. now apply (C72_incomplete (binary64 BWrap) (opencv true) (Bundle y [])).
Qed.
