(** Observable effects of the layer operations, validity and geometry. *)
From Coq Require Import ZArith QArith Qround Qabs Qreduction Qfield String List Bool Lia Lqa.
From Coq Require Import ZifyBool.
From Verif Require Import Base Mat GridMapMath GridIter CostMap History BaseLemmas Spec GeoLemmas CoreProofs.
Import ListNotations.
Open Scope Z_scope.

Lemma rne_nonneg p q : (0 <= q)%Q -> (0 <= rne p q)%Q.
Proof.
  intros H. unfold rne. destruct (Qnum q =? 0); [apply Qle_refl|].
  assert (forall n d, 0 <= n -> 0 < d -> 0 <= Zrne n d) as K.
  { intros n d Hn Hd. unfold Zrne. pose proof (Z.div_pos n d Hn Hd).
    destruct (Z.compare _ _); try lia. destruct (Z.even _); lia. }
  assert (0 <= Qnum q) by (destruct q; unfold Qle in H; simpl in *; lia).
  destruct (Z.leb_spec 0 (Qlog2 q - (p - 1))) as [He|He].
  - change 0%Q with (inject_Z 0). rewrite <- Zle_Qle. apply Z.mul_nonneg_nonneg.
    + apply K; auto. apply Z.mul_pos_pos; [lia|]. apply Z.pow_pos_nonneg; lia.
    + apply Z.pow_nonneg. lia.
  - rewrite Qred_correct. unfold Qle; simpl. rewrite Z.mul_1_r. apply K; [|lia].
    apply Z.mul_nonneg_nonneg; auto. apply Z.pow_nonneg; lia.
Qed.

Lemma exact_nonneg (E : Env) : Exact E -> rnd_nonneg (E := E).
Proof. intros X q H. now rewrite (X q). Qed.

Lemma same_meta_refl m : same_meta m m.
Proof. unfold same_meta; auto 10. Qed.

(** ** add *)

Lemma add_ok l d m :
  mrows d = fst (size m) -> mcols d = snd (size m) ->
  exists m', add l d m = Ret tt m' /\
    get m' l = Ok d /\
    (forall l', l' <> l -> get m' l' = get m l') /\
    same_meta m m' /\
    layers m' = (if exists_layer m l then layers m else layers m ++ [l]) /\
    (forall l', exists_layer m' l' = true <-> exists_layer m l' = true \/ l' = l).
Proof.
  intros H1 H2. unfold add. rewrite H1, H2, !Z.eqb_refl. simpl.
  unfold get, exists_layer.
  destruct (amem (data m) l) eqn:Hl; eexists; split; try reflexivity; simpl.
  - rewrite aget_aset, String.eqb_refl, Hl. split; auto. split; [|split; [|split; auto]].
    + intros l' Hn. rewrite aget_aset. destruct (String.eqb_spec l' l); congruence.
    + unfold same_meta; simpl; auto 10.
    + intros l'. rewrite !amem_In, akeys_aset. split; auto. intros [?| ->]; auto. now apply amem_In.
  - rewrite aget_ainsert, String.eqb_refl, Hl. split; auto. split; [|split; [|split; auto]].
    + intros l' Hn. rewrite aget_ainsert. destruct (String.eqb_spec l' l); congruence.
    + unfold same_meta; simpl; auto 10.
    + intros l'. rewrite !amem_In, akeys_ainsert, Hl, in_app_iff. simpl. intuition auto.
Qed.

Lemma add_assert l d m :
  (mrows d <> fst (size m) \/ mcols d <> snd (size m)) -> add l d m = Flt AssertFailed.
Proof.
  intros H. unfold add.
  destruct ((fst (size m) =? mrows d) && (snd (size m) =? mcols d)) eqn:K; auto. lia.
Qed.

Lemma add_value_ok l v m :
  0 <= fst (size m) -> 0 <= snd (size m) ->
  exists m', add_value l v m = Ret tt m' /\
    (forall i, in_range (size m) i -> value_at m' l i v) /\
    (forall l', l' <> l -> get m' l' = get m l') /\
    same_meta m m' /\
    layers m' = (if exists_layer m l then layers m else layers m ++ [l]) /\
    (forall l', exists_layer m' l' = true <-> exists_layer m l' = true \/ l' = l).
Proof.
  intros H1 H2. unfold add_value.
  destruct (add_ok l (mconst (fst (size m)) (snd (size m)) v) m eq_refl eq_refl)
    as (m' & Ha & Hg & Ho & Hm & Hl & He).
  exists m'. split; auto. split; auto. intros i [Hi Hj]. unfold get in Hg.
  destruct (aget (data m') l) as [d|] eqn:K; [|discriminate]. injection Hg as ->.
  eexists; split; eauto. now apply mget_mconst.
Qed.

(** ** erase *)

Lemma erase_present l m : reg_ok m -> has_layer m l ->
  exists m', erase l m = Ret true m' /\
    exists_layer m' l = false /\ ~ In l (layers m') /\ (NoDup (basic m) -> ~ In l (basic m')) /\
    (forall l', l' <> l -> get m' l' = get m l') /\
    layers m' = filter (fun x => negb (String.eqb l x)) (layers m) /\
    (NoDup (basic m) -> basic m' = filter (fun x => negb (String.eqb l x)) (basic m)) /\
    frame m' = frame m /\ stamp m' = stamp m /\ len m' = len m /\ resn m' = resn m /\
    pos m' = pos m /\ size m' = size m /\ start m' = start m.
Proof.
  intros [A B C D] H. unfold erase.
  assert (amem (data m) l = true) as Hm by (destruct H as [d H]; unfold amem; now rewrite H).
  rewrite Hm. simpl. assert (smem l (layers m) = true) as Hs.
  { apply smem_In, C, amem_In; auto. }
  rewrite Hs. simpl. eexists; split; [reflexivity|]. simpl.
  assert (forall t, NoDup t -> remove_first l t = filter (fun x => negb (String.eqb l x)) t) as RF.
  { induction t as [|x t IH]; simpl; intros ND; auto. inversion ND; subst.
    destruct (String.eqb_spec l x); simpl.
    - subst. clear -H2. symmetry. induction t as [|y t IH]; simpl; auto.
      simpl in H2. destruct (String.eqb_spec x y); simpl.
      + subst; tauto.
      + f_equal. apply IH; tauto.
    - f_equal; auto. }
  repeat split; auto.
  - unfold exists_layer; simpl. apply amem_false. now rewrite aget_adel, String.eqb_refl.
  - rewrite remove_first_In by auto. tauto.
  - intros ND. rewrite remove_first_In by auto. tauto.
  - intros l' Hn. unfold get; simpl. rewrite aget_adel by auto.
    destruct (String.eqb_spec l' l); congruence.
Qed.

Lemma erase_absent l m : ~ has_layer m l -> erase l m = Ret false m.
Proof.
  intros H. unfold erase. destruct (amem (data m) l) eqn:K; auto.
  exfalso. apply H. unfold amem in K. destruct (aget (data m) l) eqn:G; [|discriminate]. now exists m0.
Qed.

(** ** at *)

Lemma reg_value m l i : reg_ok m -> has_layer m l -> in_range (size m) i ->
  exists v, value_at m l i v.
Proof.
  intros R [d Hd] [Hi Hj]. destruct (r_mat _ R _ _ Hd) as (W & H1 & H2).
  destruct (proj2 (mget_Some_iff d (fst i) (snd i) W)) as [v Hv]; [lia|]. exists v, d. auto.
Qed.

Lemma at_value m l i v : at_ m l i = Ok v <-> value_at m l i v.
Proof.
  unfold at_, value_at. destruct (aget (data m) l) as [d|]; split; intros H; try discriminate.
  - exists d. split; auto. destruct (mget d (fst i) (snd i)); simpl in H; congruence.
  - destruct H as (d' & H & K). injection H as <-. now rewrite K.
  - destruct H as (d' & H & K). discriminate.
Qed.

Lemma value_fun m l i v w : value_at m l i v -> value_at m l i w -> v = w.
Proof. rewrite <- !at_value. congruence. Qed.

Lemma at_set_ok l i v m : reg_ok m -> has_layer m l -> in_range (size m) i ->
  exists m', at_set l i v m = Ret tt m' /\
    at_ m' l i = Ok v /\
    (forall l' i', (l' <> l \/ i' <> i) -> at_ m' l' i' = at_ m l' i') /\
    layers m' = layers m /\ same_meta m m' /\
    (forall l', exists_layer m' l' = exists_layer m l').
Proof.
  intros R [d Hd] [Hi Hj]. destruct (r_mat _ R _ _ Hd) as (W & H1 & H2).
  unfold at_set. rewrite Hd. destruct (mset_Some d (fst i) (snd i) v) as [d' Hs]; try lia.
  rewrite Hs. apply mset_spec in Hs; auto. destruct Hs as (_ & W' & R1 & R2 & G).
  eexists; split; [reflexivity|]. unfold at_; simpl.
  assert (Hm : amem (data m) l = true) by (unfold amem; now rewrite Hd).
  split; [|split; [|split; [|split]]]; auto.
  - rewrite aget_aset, String.eqb_refl, Hm. now rewrite G, !Z.eqb_refl.
  - intros l' i' Hn. rewrite aget_aset. destruct (String.eqb_spec l' l); auto. subst l'.
    rewrite Hm, Hd, G. destruct Hn as [?|Hn]; [congruence|].
    destruct (Z.eqb_spec (fst i') (fst i)), (Z.eqb_spec (snd i') (snd i)); simpl; auto.
    destruct i, i'; simpl in *; congruence.
  - unfold same_meta; simpl; auto 10.
  - intros l'. unfold exists_layer, amem. simpl. rewrite aget_aset.
    destruct (String.eqb_spec l' l); auto. subst. now rewrite Hm, Hd.
Qed.

(** ** absent layers *)

Lemma absent_layer m l : ~ has_layer m l ->
  get m l = Throw OutOfRange /\
  (forall i, at_ m l i = Throw OutOfRange) /\
  (forall i v, at_set l i v m = Exn OutOfRange m) /\
  clear l m = Exn OutOfRange m /\
  erase l m = Ret false m /\
  (forall i, isValid_layer m i l = Throw OutOfRange).
Proof.
  intros H. assert (aget (data m) l = None) as K.
  { destruct (aget (data m) l) eqn:G; auto. exfalso; apply H. now exists m0. }
  unfold get, at_, at_set, clear, isValid_layer, at_. rewrite K. repeat split; auto.
  now apply erase_absent.
Qed.

(** ** clearing *)

Lemma clear_ok l m : reg_ok m -> has_layer m l ->
  exists m', clear l m = Ret tt m' /\
    (forall i, in_range (size m) i -> value_at m' l i NO_INFORMATION) /\
    (forall l', l' <> l -> get m' l' = get m l') /\
    (forall l', exists_layer m' l' = exists_layer m l') /\
    layers m' = layers m /\ same_meta m m'.
Proof.
  intros R [d Hd]. destruct (r_mat _ R _ _ Hd) as (W & H1 & H2). unfold clear. rewrite Hd.
  assert (Hm : amem (data m) l = true) by (unfold amem; now rewrite Hd).
  eexists; split; [reflexivity|]. split; [|split; [|split; [|split]]]; auto.
  - intros i [Hi Hj]. eexists. simpl. rewrite aget_aset, String.eqb_refl, Hm. split; eauto.
    apply mget_mconst; lia.
  - intros l' Hn. unfold get; simpl. rewrite aget_aset. destruct (String.eqb_spec l' l); congruence.
  - intros l'. unfold exists_layer, amem. simpl. rewrite aget_aset.
    destruct (String.eqb_spec l' l); auto. subst. now rewrite Hm, Hd.
  - unfold same_meta; simpl; auto 10.
Qed.

Lemma clearAll_ok m : reg_ok m ->
  exists m', clearAll m = Ret tt m' /\
    (forall l i, has_layer m l -> in_range (size m) i -> value_at m' l i NO_INFORMATION) /\
    (forall l', exists_layer m' l' = exists_layer m l') /\
    layers m' = layers m /\ same_meta m m'.
Proof.
  intros R. eexists; split; [reflexivity|]. split; [|split; [|split]]; auto.
  - intros l i [d Hd] [Hi Hj]. destruct (r_mat _ R _ _ Hd) as (W & H1 & H2).
    eexists. simpl. rewrite (aget_map (fun x => mconst (mrows x) (mcols x) NO_INFORMATION)), Hd.
    split; [reflexivity|]. apply mget_mconst; lia.
  - intros l'. unfold exists_layer, amem; simpl.
    rewrite (aget_map (fun x => mconst (mrows x) (mcols x) NO_INFORMATION)).
    destruct (aget (data m) l'); auto.
  - unfold same_meta; simpl; auto 10.
Qed.

(** Clearing a list of existing layers. *)
Lemma clear_list ls : forall m, reg_ok' m -> (forall l, In l ls -> has_layer m l) ->
  exists m', mfor ls clear m = Ret tt m' /\ reg_ok' m' /\
    (forall l i, In l ls -> in_range (size m) i -> value_at m' l i NO_INFORMATION) /\
    (forall l, ~ In l ls -> get m' l = get m l) /\
    (forall l', exists_layer m' l' = exists_layer m l') /\
    layers m' = layers m /\ same_meta m m'.
Proof.
  induction ls as [|l ls IH]; intros m R H; simpl.
  - exists m. split; [reflexivity|]. split; [exact R|]. split; [simpl; tauto|]. split; [auto|]. split; [auto|]. split; [auto|apply same_meta_refl].
  - destruct (clear_ok l m) as (m1 & Hc & V1 & O1 & X1 & L1 & M1); [apply R|apply H; now left|].
    pose proof (pres_clear l m R) as R1. rewrite Hc in *; simpl in R1.
    assert (Hsz : size m1 = size m) by (symmetry; apply M1).
    destruct (IH m1) as (m2 & Hf & R2 & V2 & O2 & X2 & L2 & M2); auto.
    { intros l' Hl'. assert (has_layer m l') as [d Hd] by (apply H; now right).
      specialize (X1 l'). unfold exists_layer, amem in X1. rewrite Hd in X1.
      unfold has_layer. destruct (aget (data m1) l') eqn:G; [eauto|discriminate]. }
    exists m2. split; auto. split; auto. split; [|split; [|split; [|split]]].
    + intros l' i Hl' Hi. destruct (in_dec string_dec l' ls) as [Hin|Hout].
      * apply V2; auto. now rewrite Hsz.
      * destruct Hl' as [<-|Hl']; [|tauto]. 
        destruct (V1 i Hi) as (d & Hd & Hv). exists d. split; auto.
        specialize (O2 l Hout). unfold get in O2. rewrite Hd in O2.
        destruct (aget (data m2) l); congruence.
    + intros l' Hl'. rewrite O2 by tauto. apply O1. intros ->; tauto.
    + intros l'. rewrite X2. auto.
    + congruence.
    + unfold same_meta in *. intuition congruence.
Qed.

Lemma clearBasic_ok m : reg_ok' m -> (forall l, In l (basic m) -> has_layer m l) ->
  exists m', clearBasic m = Ret tt m' /\
    (forall l i, In l (basic m) -> in_range (size m) i -> value_at m' l i NO_INFORMATION) /\
    (forall l, ~ In l (basic m) -> get m' l = get m l) /\
    (forall l', exists_layer m' l' = exists_layer m l') /\
    layers m' = layers m /\ same_meta m m'.
Proof.
  intros R H. destruct (clear_list (basic m) m R H) as (m' & A & _ & B). exists m'. split; auto.
Qed.

Lemma clear_list_missing ls : forall m, reg_ok' m -> (exists l, In l ls /\ ~ has_layer m l) ->
  exists m', mfor ls clear m = Exn OutOfRange m' /\ reg_ok' m' /\ layers m' = layers m /\ same_meta m m'.
Proof.
  induction ls as [|l ls IH]; intros m R (l0 & Hin & Hl0); simpl in *; [tauto|].
  destruct (aget (data m) l) as [d|] eqn:Hd.
  - assert (has_layer m l) as HL by (now exists d).
    destruct (clear_ok l m) as (m1 & Hc & V1 & O1 & X1 & L1 & M1); [apply R|auto|].
    pose proof (pres_clear l m R) as R1. rewrite Hc in *; simpl in R1.
    destruct Hin as [->|Hin]; [tauto|].
    destruct (IH m1) as (m2 & A & B & C & D); auto.
    { exists l0. split; auto. intros [d0 Hd0]. apply Hl0.
      specialize (X1 l0). unfold exists_layer, amem in X1. rewrite Hd0 in X1.
      unfold has_layer. destruct (aget (data m) l0); [eauto|discriminate]. }
    exists m2. split; [auto|]. split; [auto|]. split; [congruence|]. unfold same_meta in *; intuition congruence.
  - unfold clear. rewrite Hd. exists m. split; [auto|]. split; [auto|]. split; [auto|apply same_meta_refl].
Qed.

(** ** validity *)

Lemma isValid_layer_ok m i l v : value_at m l i v ->
  isValid_layer m i l = Ok (negb (v =? 255)).
Proof. intros H. unfold isValid_layer. rewrite (proj2 (at_value m l i v) H). reflexivity. Qed.

Lemma isValid_loop_ok m i ls : (forall l, In l ls -> exists v, value_at m l i v) ->
  exists b, isValid_loop m i ls = Ok b /\
    (b = true <-> forall l, In l ls -> exists v, value_at m l i v /\ v <> NO_INFORMATION).
Proof.
  induction ls as [|l ls IH]; intros H; simpl.
  - exists true. split; auto. split; auto. intros _ l [].
  - destruct (H l (or_introl eq_refl)) as [v Hv]. rewrite (proj2 (at_value m l i v) Hv). simpl.
    destruct (Z.eqb_spec v NO_INFORMATION).
    + exists false. split; auto. split; [discriminate|]. intros K.
      destruct (K l (or_introl eq_refl)) as (w & Hw & Hn). rewrite (value_fun _ _ _ _ _ Hv Hw) in e. tauto.
    + destruct IH as (b & Hb & Hiff); [intros; apply H; now right|]. exists b. split; auto.
      rewrite Hiff. split.
      * intros K l' [<-|Hl']; eauto.
      * intros K l' Hl'. apply K. now right.
Qed.

Lemma isValid_layers_ok m i ls : (forall l, In l ls -> exists v, value_at m l i v) ->
  exists b, isValid_layers m i ls = Ok b /\
    (b = true <-> ls <> [] /\ forall l, In l ls -> exists v, value_at m l i v /\ v <> NO_INFORMATION).
Proof.
  intros H. destruct ls as [|l ls].
  - exists false. split; auto. split; [discriminate|]. intros [K _]. congruence.
  - destruct (isValid_loop_ok m i (l :: ls) H) as (b & Hb & Hiff). exists b. split; auto.
    rewrite Hiff. split; [|tauto]. intros K; split; auto. discriminate.
Qed.

Lemma hasSameLayers_ok m o : reg_ok m ->
  (hasSameLayers m o = true <-> forall l, exists_layer m l = true -> exists_layer o l = true).
Proof.
  intros R. unfold hasSameLayers. rewrite forallb_forall. split; intros H l Hl.
  - apply H. apply (r_same _ R). now apply amem_In.
  - apply H. apply amem_In. now apply (r_same _ R).
Qed.

(** ** setGeometry *)

Section Geo.
Context {E : Env} (X : Exact E).

Lemma setGeometry_assert l r p m :
  ~ (0 < fst l /\ 0 < snd l /\ 0 < r)%Q -> setGeometry l r p m = Flt AssertFailed.
Proof.
  intros H. unfold setGeometry.
  destruct (Qlt_bool 0 (fst l) && Qlt_bool 0 (snd l) && Qlt_bool 0 r) eqn:K; auto.
  rewrite !andb_true_iff, !Qlt_bool_iff in K. tauto.
Qed.

(** Nearest integer, ties upward, of a non-negative rational. *)
Lemma Qround_away_unique q n : (0 <= q)%Q ->
  (Qround_away q = n <-> inject_Z n - (1#2) <= q /\ q < inject_Z n + (1#2))%Q.
Proof.
  intros H. unfold Qround_away. rewrite (proj2 (Qle_bool_iff 0 q)) by auto.
  pose proof (Qfloor_le (q + (1#2))) as A. pose proof (Qlt_floor (q + (1#2))) as B. split.
  - intros <-. injz. split; lra.
  - intros [C D]. apply Qfloor_unique; injz; lra.
Qed.

Lemma setGeometry_ok l r p m : reg_ok m -> (0 < fst l)%Q -> (0 < snd l)%Q -> (0 < r)%Q ->
  exists m', setGeometry l r p m = Ret tt m' /\ reg_ok m' /\
    (inject_Z (fst (size m')) - (1#2) <= fst l / r < inject_Z (fst (size m')) + (1#2))%Q /\
    (inject_Z (snd (size m')) - (1#2) <= snd l / r < inject_Z (snd (size m')) + (1#2))%Q /\
    (fst (len m') == inject_Z (fst (size m')) * r)%Q /\ (snd (len m') == inject_Z (snd (size m')) * r)%Q /\
    (Qabs (fst (len m') - fst l) <= r / 2)%Q /\ (Qabs (snd (len m') - snd l) <= r / 2)%Q /\
    resn m' = r /\ pos m' = p /\ start m' = (0, 0) /\
    layers m' = layers m /\ basic m' = basic m /\ frame m' = frame m /\ stamp m' = stamp m /\
    (forall l, exists_layer m' l = exists_layer m l) /\
    (forall l i, has_layer m l -> in_range (size m') i -> value_at m' l i NO_INFORMATION).
Proof.
  intros R H1 H2 H3.
  assert (forall x, (0 < x)%Q -> (0 <= x / r)%Q) as Hd by (intros; apply Qle_shift_div_l; lra).
  assert (R0 : forall x, (0 < x)%Q -> 0 <= Qround_away (fdiv x r)).
  { intros x Hx. rewrite (fdiv_eq X). apply Qround_away_nonneg; auto. }
  pose (m1 := set_size (set_data m (map (fun kv => (fst kv, mconst (Qround_away (fdiv (fst l) r)) (Qround_away (fdiv (snd l) r)) 0)) (data m))) (Qround_away (fdiv (fst l) r), Qround_away (fdiv (snd l) r))).
  assert (R1 : reg_ok m1).
  { pose proof (r_mat _ R) as D. destruct R as [A B C _]. constructor; simpl; auto.
    - now rewrite akeys_map with (f := fun kv => mconst (Qround_away (fdiv (fst l) r)) (Qround_away (fdiv (snd l) r)) 0).
    - intros l'. now rewrite akeys_map with (f := fun kv => mconst (Qround_away (fdiv (fst l) r)) (Qround_away (fdiv (snd l) r)) 0).
    - intros l' d. rewrite (aget_map (fun x => mconst (Qround_away (fdiv (fst l) r)) (Qround_away (fdiv (snd l) r)) 0)).
      destruct (aget (data m) l'); [|discriminate]. intros K; injection K as <-. split; auto. apply wf_mconst; auto. }
  destruct (clearAll_ok m1 R1) as (m2 & Hc & V & Ex & L2 & M2).
  assert (setGeometry l r p m = Ret tt (set_geo m2 (fmul (inject_Z (fst (size m2))) r, fmul (inject_Z (snd (size m2))) r) r p (0, 0))) as HG.
  { unfold setGeometry.
    rewrite (proj2 (Qlt_bool_iff 0 (fst l))), (proj2 (Qlt_bool_iff 0 (snd l))), (proj2 (Qlt_bool_iff 0 r)) by auto.
    cbn [andb negb]. unfold bind at 1. unfold resize, modify. cbn [fst snd]. fold m1. unfold bind at 1.
    rewrite Hc. reflexivity. }
  assert (Sz : size m2 = (Qround_away (fdiv (fst l) r), Qround_away (fdiv (snd l) r))).
  { transitivity (size m1); auto. symmetry; apply M2. }
  eexists; split; [exact HG|]. cbn [size len resn pos start layers basic frame stamp set_geo fst snd].
  assert (A0 : forall x, (0 < x)%Q -> (inject_Z (Qround_away (fdiv x r)) - (1#2) <= x / r < inject_Z (Qround_away (fdiv x r)) + (1#2))%Q).
  { intros x Hx. apply Qround_away_unique; auto. now rewrite (fdiv_eq X). }
  pose proof (A0 _ H1) as A1. pose proof (A0 _ H2) as A2.
  assert (forall x n, (inject_Z n - (1#2) <= x / r < inject_Z n + (1#2))%Q -> (Qabs (inject_Z n * r - x) <= r / 2)%Q) as NR.
  { intros x n [P1 P2]. apply Qabs_Qle_condition.
    rewrite Qle_div_iff in P1 by auto. rewrite Qlt_div_iff in P2 by auto.
    assert ((inject_Z n - (1 # 2)) * r == inject_Z n * r - r / 2)%Q as E1 by field.
    assert ((inject_Z n + (1 # 2)) * r == inject_Z n * r + r / 2)%Q as E2 by field.
    rewrite E1 in P1. rewrite E2 in P2. split; lra. }
  destruct M2 as (F1 & F2 & F3 & F4 & F5 & F6 & F7 & F8).
  split.
  { pose proof (pres_clearAll m1) as PC. rewrite Hc in PC. simpl in PC.
    destruct PC as [[A B C D] _]. { split; auto. simpl; auto. } constructor; auto. }
  rewrite Sz; cbn [fst snd]. 
  split; [exact A1|]. split; [exact A2|].
  split; [apply (fmul_eq X)|]. split; [apply (fmul_eq X)|].
  split; [rewrite (fmul_eq X); auto|]. split; [rewrite (fmul_eq X); auto|].
  repeat split; auto.
  - intros l'. unfold exists_layer in *. cbn [data set_geo]. rewrite Ex. simpl.
    unfold amem. rewrite (aget_map (fun x => mconst (Qround_away (fdiv (fst l) r)) (Qround_away (fdiv (snd l) r)) 0)).
    destruct (aget (data m) l'); auto.
  - intros l' i [d Hd'] Hi. apply V; auto. exists (mconst (Qround_away (fdiv (fst l) r)) (Qround_away (fdiv (snd l) r)) 0).
    simpl. rewrite (aget_map (fun x => mconst (Qround_away (fdiv (fst l) r)) (Qround_away (fdiv (snd l) r)) 0)), Hd'. reflexivity.
Qed.

(** setGeometry gives a usable geometry as soon as it yields cells. *)
Lemma setGeometry_geo l r p m m' : setGeometry l r p m = Ret tt m' ->
  0 < fst (size m') -> 0 < snd (size m') -> geo_ok m'.
Proof.
  intros H S1 S2. unfold setGeometry in H. destruct (negb _) eqn:K; [discriminate|].
  apply negb_false_iff in K. rewrite !andb_true_iff, !Qlt_bool_iff in K.
  unfold bind, resize, clearAll, modify in H. injection H as <-. simpl in *. constructor; simpl.
  - tauto.
  - auto.
  - split; simpl; apply (fmul_eq X).
  - unfold in_range; simpl; lia.
Qed.

(** ** index/position *)

Lemma index_roundtrip m i : geo_ok m -> in_range (size m) i ->
  exists p, getPosition m i = Some p /\ getIndex m p = (true, i).
Proof.
  intros G H. destruct (getPosition_centre X m i G H) as (p & Hp & Hv). exists p. split; auto.
  apply (getIndex_covering X); auto. eapply contains_comp; [| |apply centre_contains; auto].
  - split; reflexivity.
  - destruct Hv. split; symmetry; auto.
Qed.

Lemma position_to_index m p : geo_ok m ->
  (isInside m p = true <-> inside m p) /\
  (fst (getIndex m p) = true <-> inside m p) /\
  (inside m p -> exists i c, getIndex m p = (true, i) /\ in_range (size m) i /\
     getPosition m i = Some c /\ contains (resn m) c p /\
     (Qabs (fst c - fst p) <= resn m / 2)%Q /\ (Qabs (snd c - snd p) <= resn m / 2)%Q).
Proof.
  intros G. split; [apply (isInside_iff X)|]. split.
  { rewrite fst_getIndex. apply (isInside_iff X). }
  intros H. destruct (getIndex_contains X m p G H) as [R C].
  destruct (getPosition_centre X m _ G R) as (c & Hc & Hv).
  exists (snd (getIndex m p)), c. split.
  { rewrite (surjective_pairing (getIndex m p)) at 1. f_equal. rewrite fst_getIndex. now apply (isInside_iff X). }
  split; auto. split; auto.
  assert (contains (resn m) c p) as C'.
  { eapply contains_comp; [| |exact C]; [destruct Hv; split; symmetry; auto|split; reflexivity]. }
  split; auto. destruct C' as [[A1 A2] [B1 B2]].
  split; apply Qabs_Qle_condition; split; lra.
Qed.

Lemma atPosition_spec m l p : geo_ok m -> reg_ok m -> has_layer m l ->
  (inside m p -> forall i, getIndex m p = (true, i) ->
     atPosition m l p = at_ m l i /\ (forall v, atPosition_set l p v m = at_set l i v m)) /\
  (~ inside m p -> atPosition m l p = Throw OutOfRange /\
     (forall v, atPosition_set l p v m = Exn OutOfRange m)).
Proof.
  intros G R L. split.
  - intros H i Hi. unfold atPosition, atPosition_set. rewrite Hi. auto.
  - intros H. unfold atPosition, atPosition_set.
    destruct (getIndex m p) as [ok i] eqn:K. destruct ok; [|auto].
    exfalso. apply H. apply (isInside_iff X). rewrite <- fst_getIndex. now rewrite K.
Qed.

Lemma positions_distinct m i j p q : geo_ok m ->
  getPosition m i = Some p -> getPosition m j = Some q -> veq p q -> i = j.
Proof.
  intros G Hp Hq Hpq.
  assert (in_range (size m) i) as Ri.
  { unfold getPosition, position_from_index in Hp. destruct (index_in_range i (size m)) eqn:K; [|discriminate]. now apply index_in_range_iff. }
  assert (in_range (size m) j) as Rj.
  { unfold getPosition, position_from_index in Hq. destruct (index_in_range j (size m)) eqn:K; [|discriminate]. now apply index_in_range_iff. }
  destruct (getPosition_centre X m i G Ri) as (p' & Hp' & Vp). rewrite Hp in Hp'; injection Hp' as <-.
  destruct (getPosition_centre X m j G Rj) as (q' & Hq' & Vq). rewrite Hq in Hq'; injection Hq' as <-.
  apply (covering_unique m i j p); auto.
  - eapply contains_comp; [split; reflexivity| |apply centre_contains; auto].
    destruct Vp; split; symmetry; auto.
  - eapply contains_comp; [split; reflexivity| |apply centre_contains; auto].
    destruct Vq, Hpq. split; [rewrite <- H|rewrite <- H0]; symmetry; auto.
Qed.

Lemma grid_positions m i p : geo_ok m -> getPosition m i = Some p ->
  exists u, in_range (size m) u /\ 
    ((fst i - fst u - fst (start m)) mod fst (size m) = 0) /\
    ((snd i - snd u - snd (start m)) mod snd (size m) = 0) /\
    (fst p == fst (pos m) + fst (len m) / 2 - (inject_Z (fst u) + (1#2)) * resn m)%Q /\
    (snd p == snd (pos m) + snd (len m) / 2 - (inject_Z (snd u) + (1#2)) * resn m)%Q /\
    inside m p.
Proof.
  intros G Hp.
  assert (in_range (size m) i) as Ri.
  { unfold getPosition, position_from_index in Hp. destruct (index_in_range i (size m)) eqn:K; [|discriminate]. now apply index_in_range_iff. }
  destruct (getPosition_centre X m i G Ri) as (p' & Hp' & Vp). rewrite Hp in Hp'; injection Hp' as <-.
  exists (world_index m i). split; [now apply world_in_range|].
  destruct (g_size _ G). unfold world_index at 1 2; cbn [fst snd]. 
  split; [|split; [|split; [|split]]].
  - replace (fst i - (fst i - fst (start m)) mod fst (size m) - fst (start m))
      with ((fst i - fst (start m)) - (fst i - fst (start m)) mod fst (size m)) by lia.
    rewrite Zminus_mod_idemp_r. replace (fst i - fst (start m) - (fst i - fst (start m))) with 0 by lia. apply Z.mod_0_l; lia.
  - replace (snd i - (snd i - snd (start m)) mod snd (size m) - snd (start m))
      with ((snd i - snd (start m)) - (snd i - snd (start m)) mod snd (size m)) by lia.
    rewrite Zminus_mod_idemp_r. replace (snd i - snd (start m) - (snd i - snd (start m))) with 0 by lia. apply Z.mod_0_l; lia.
  - apply Vp.
  - apply Vp.
  - apply (contains_inside m i); auto. eapply contains_comp; [split; reflexivity| |apply centre_contains; auto].
    destruct Vp; split; symmetry; auto.
Qed.

End Geo.
