(** Final forms of the lemmas about layers, cells and geometry. *)
From Coq Require Import ZArith QArith Qround Qabs Qreduction String List Bool Lia.
From Verif Require Import Base Mat GridMapMath GridIter CostMap History Spec BaseLemmas GeoLemmas CoreProofs CoreProofs2 MoveProofs.
Import ListNotations.
Open Scope Z_scope.

Lemma exists_has m l : exists_layer m l = true <-> has_layer m l.
Proof.
  unfold exists_layer, amem, has_layer. destruct (aget (data m) l); split; intros H; eauto.
  - discriminate.
  - destruct H; discriminate.
Qed.

Lemma get_has m l d : get m l = Ok d <-> aget (data m) l = Some d.
Proof. unfold get. destruct (aget (data m) l); split; congruence. Qed.

Lemma akeys_has m l : reg_ok m -> (In l (layers m) <-> exists_layer m l = true).
Proof. intros R. rewrite (r_same _ R). symmetry. apply amem_In. Qed.

Lemma registry_final (E : Env) names m : rnd_nonneg -> NoDup names -> reach (new_map names) m ->
  NoDup (layers m) /\ (forall l, In l (layers m) <-> exists_layer m l = true) /\
  (forall l d, get m l = Ok d -> mrows d = fst (size m) /\ mcols d = snd (size m)) /\
  (forall l i, In l (layers m) -> in_range (size m) i -> exists v, at_ m l i = Ok v).
Proof.
  intros RN ND H. destruct (reach_reg RN names m ND H) as [R Z].
  split; [apply R|]. split; [intros; now apply akeys_has|]. split.
  - intros l d Hd. apply get_has in Hd. apply (r_mat _ R) in Hd. tauto.
  - intros l i Hl Hi. apply (akeys_has _ _ R), exists_has in Hl.
    destruct (reg_value m l i R Hl Hi) as [v Hv]. exists v. now apply at_value.
Qed.

Lemma add_value_final (m : cmap) l v : reg_ok' m ->
  exists m', add_value l v m = Ret tt m' /\
    (forall i, in_range (size m) i -> at_ m' l i = Ok v) /\
    (forall l', l' <> l -> get m' l' = get m l') /\
    same_meta m m' /\
    layers m' = (if exists_layer m l then layers m else layers m ++ [l]) /\
    (forall l', exists_layer m' l' = true <-> exists_layer m l' = true \/ l' = l).
Proof.
  intros (R & Z0 & Z1). destruct (add_value_ok l v m Z0 Z1) as (m' & H & V & T).
  exists m'. split; auto. split; auto. intros i Hi. apply at_value; auto.
Qed.

Lemma erase_final m l : reg_ok m ->
  (exists_layer m l = true -> exists m', erase l m = Ret true m' /\
    exists_layer m' l = false /\ ~ In l (layers m') /\ (NoDup (basic m) -> ~ In l (basic m')) /\
    (forall l', l' <> l -> get m' l' = get m l') /\
    layers m' = filter (fun x => negb (String.eqb l x)) (layers m) /\
    (NoDup (basic m) -> basic m' = filter (fun x => negb (String.eqb l x)) (basic m)) /\
    frame m' = frame m /\ stamp m' = stamp m /\ len m' = len m /\ resn m' = resn m /\
    pos m' = pos m /\ size m' = size m /\ start m' = start m) /\
  (exists_layer m l = false -> erase l m = Ret false m).
Proof.
  intros R. split.
  - intros H. apply erase_present; auto. now apply exists_has.
  - intros H. apply erase_absent. intros C. apply exists_has in C. congruence.
Qed.

Lemma at_final m l i v : reg_ok m -> exists_layer m l = true -> in_range (size m) i ->
  exists m', at_set l i v m = Ret tt m' /\
    at_ m' l i = Ok v /\
    (forall l' i', (l' <> l \/ i' <> i) -> at_ m' l' i' = at_ m l' i') /\
    layers m' = layers m /\ same_meta m m' /\
    (forall l', exists_layer m' l' = exists_layer m l').
Proof. intros R H. apply at_set_ok; auto. now apply exists_has. Qed.

(** The whole buffer of a layer is unknown. *)
Lemma clear_final m l : reg_ok m -> exists_layer m l = true ->
  exists m', clear l m = Ret tt m' /\
    (forall i, in_range (size m) i -> at_ m' l i = Ok unknown) /\
    (forall l', l' <> l -> get m' l' = get m l') /\
    (forall l', exists_layer m' l' = exists_layer m l') /\
    layers m' = layers m /\ same_meta m m'.
Proof.
  intros R H. apply exists_has in H. destruct (clear_ok l m R H) as (m' & C & V & T).
  exists m'. split; auto. split; auto. intros i Hi. apply at_value; auto.
Qed.

Lemma clearAll_final m : reg_ok m ->
  exists m', clearAll m = Ret tt m' /\
    (forall l i, exists_layer m l = true -> in_range (size m) i -> at_ m' l i = Ok unknown) /\
    (forall l', exists_layer m' l' = exists_layer m l') /\
    layers m' = layers m /\ same_meta m m'.
Proof.
  intros R. destruct (clearAll_ok m R) as (m' & C & V & T).
  exists m'. split; auto. split; auto. intros l i Hl Hi. apply at_value. apply V; auto. now apply exists_has.
Qed.

Lemma clearBasic_final m : reg_ok' m ->
  ((forall l, In l (basic m) -> exists_layer m l = true) ->
   exists m', clearBasic m = Ret tt m' /\
    (forall l i, In l (basic m) -> in_range (size m) i -> at_ m' l i = Ok unknown) /\
    (forall l, ~ In l (basic m) -> get m' l = get m l) /\
    (forall l', exists_layer m' l' = exists_layer m l') /\
    layers m' = layers m /\ same_meta m m') /\
  (forall pre l post, basic m = pre ++ l :: post -> (forall l', In l' pre -> exists_layer m l' = true) -> exists_layer m l = false ->
   exists m', clearBasic m = Exn OutOfRange m' /\
    (forall l' i, In l' pre -> in_range (size m) i -> at_ m' l' i = Ok unknown) /\
    (forall l', ~ In l' pre -> get m' l' = get m l') /\
    (forall l', exists_layer m' l' = exists_layer m l') /\
    layers m' = layers m /\ same_meta m m').
Proof.
  intros R. split; intros H.
  - destruct (clearBasic_ok m R) as (m' & C & V & T).
    { intros l Hl. apply exists_has; auto. }
    exists m'. split; auto. split; auto. intros l i Hl Hi. apply at_value; auto.
  - intros l post HB HP HX. rename H into pre.
    destruct (clear_list pre m R) as (m' & C & _ & V & T & X & LM).
    { intros l' Hl'. apply exists_has; auto. }
    exists m'. split.
    + unfold clearBasic. rewrite HB, mfor_app, C. cbn [mfor]. unfold clear.
      destruct (aget (data m') l) eqn:G; [|reflexivity]. exfalso.
      specialize (X l). rewrite HX in X. unfold exists_layer, amem in X. now rewrite G in X.
    + split; [|auto]. intros l' i Hl Hi. apply at_value; auto.
Qed.

Lemma isValid_final m i : reg_ok m -> in_range (size m) i ->
  (forall l v, at_ m l i = Ok v -> isValid_layer m i l = Ok (negb (v =? 255))) /\
  (forall ls, (forall l, In l ls -> exists_layer m l = true) ->
     exists b, isValid_layers m i ls = Ok b /\
       (b = true <-> ls <> [] /\ forall l, In l ls -> exists v, at_ m l i = Ok v /\ v <> unknown)) /\
  (forall pre l post, (forall x, In x pre -> exists v, at_ m x i = Ok v /\ v <> unknown) ->
     (exists_layer m l = false -> isValid_layers m i (pre ++ l :: post) = Throw OutOfRange) /\
     (at_ m l i = Ok unknown -> isValid_layers m i (pre ++ l :: post) = Ok false)) /\
  isValid m i = isValid_layers m i (basic m) /\
  (basic m = [] -> isValid m i = Ok false).
Proof.
  intros R Hi. split; [|split; [|split; [|split]]].
  - intros l v H. apply isValid_layer_ok. now apply at_value.
  - intros ls H. destruct (isValid_layers_ok m i ls) as (b & Hb & Hs).
    { intros l Hl. apply reg_value; auto. apply exists_has; auto. }
    exists b. split; auto. rewrite Hs.
    split; intros [A B]; split; auto; intros l Hl; destruct (B l Hl) as (v & V & N); exists v; split; auto;
      now apply at_value.
  - intros pre l post H.
    assert (L : isValid_layers m i (pre ++ l :: post) = isValid_loop m i (l :: post)).
    { transitivity (isValid_loop m i (pre ++ l :: post)); [now destruct pre|].
      induction pre as [|x pre IH]; [reflexivity|]. cbn [app isValid_loop].
      destruct (H x (or_introl eq_refl)) as (v & -> & N). cbn [rbind].
      destruct (Z.eqb_spec v NO_INFORMATION) as [e|_]; [now elim N|]. apply IH. intros y Hy. apply H. now right. }
    rewrite L. cbn [isValid_loop]. split; intros K.
    + unfold at_. unfold exists_layer, amem in K. destruct (aget (data m) l); [discriminate|reflexivity].
    + rewrite K. reflexivity.
  - reflexivity.
  - intros H. unfold isValid, isValid_layers. now rewrite H.
Qed.

Lemma missing_final (E : Env) m l : exists_layer m l = false ->
  get m l = Throw OutOfRange /\
  (forall i, at_ m l i = Throw OutOfRange) /\
  (forall i v, at_set l i v m = Exn OutOfRange m) /\
  (forall p, atPosition m l p = Throw OutOfRange) /\
  (forall p v, atPosition_set l p v m = Exn OutOfRange m) /\
  clear l m = Exn OutOfRange m /\
  erase l m = Ret false m /\
  (forall i, isValid_layer m i l = Throw OutOfRange).
Proof.
  intros H.
  assert (~ has_layer m l) as N by (intros C; apply exists_has in C; congruence).
  destruct (absent_layer m l N) as (A & B & C & D & F & G).
  split; auto. split; auto. split; auto.
  split. { intros p. unfold atPosition. destruct (getIndex m p) as [[] i]; auto. }
  split; auto. intros p v. unfold atPosition_set. destruct (getIndex m p) as [[] i]; auto.
Qed.

Lemma setGeometry_final (E : Env) (X : Exact E) l r p m : reg_ok m ->
  (0 < fst l)%Q -> (0 < snd l)%Q -> (0 < r)%Q ->
  exists m', setGeometry l r p m = Ret tt m' /\
    (inject_Z (fst (size m')) - (1#2) <= fst l / r < inject_Z (fst (size m')) + (1#2))%Q /\
    (inject_Z (snd (size m')) - (1#2) <= snd l / r < inject_Z (snd (size m')) + (1#2))%Q /\
    (fst (len m') == inject_Z (fst (size m')) * r)%Q /\ (snd (len m') == inject_Z (snd (size m')) * r)%Q /\
    (Qabs (fst (len m') - fst l) <= r / 2)%Q /\ (Qabs (snd (len m') - snd l) <= r / 2)%Q /\
    resn m' = r /\ pos m' = p /\ start m' = (0, 0) /\
    layers m' = layers m /\ basic m' = basic m /\ frame m' = frame m /\ stamp m' = stamp m /\
    (forall l, exists_layer m' l = exists_layer m l) /\
    (forall l i, exists_layer m l = true -> in_range (size m') i -> at_ m' l i = Ok unknown).
Proof.
  intros R A B C. destruct (setGeometry_ok X l r p m R A B C) as (m' & H & _ & T).
  exists m'. split; auto.
  destruct T as (T1 & T2 & T3 & T4 & T5 & T6 & T7 & T8 & T9 & T10 & T11 & T12 & T13 & T14 & T15).
  split; auto. split; auto. split; auto. split; auto. split; auto. split; auto. split; auto. split; auto.
  split; auto. split; auto. split; auto. split; auto. split; auto. split; auto.
  intros l' i Hl Hi. apply at_value. apply T15; auto. now apply exists_has.
Qed.

Lemma atPosition_final (E : Env) (X : Exact E) m l p : geo_ok m -> reg_ok m -> exists_layer m l = true ->
  (inside m p -> exists i, in_range (size m) i /\ contains (resn m) (centre m i) p /\
     atPosition m l p = at_ m l i /\ (forall v, atPosition_set l p v m = at_set l i v m)) /\
  (~ inside m p -> atPosition m l p = Throw OutOfRange /\
     (forall v, atPosition_set l p v m = Exn OutOfRange m)).
Proof.
  intros G R H. apply exists_has in H. destruct (atPosition_spec X m l p G R H) as [A B].
  split; auto. intros I. destruct (getIndex_contains X m p G I) as [Ri Ci].
  exists (snd (getIndex m p)). split; auto. split; auto. apply A; auto.
  pose proof (fst_getIndex m p) as F. destruct (getIndex m p) as [b i]. simpl in *. f_equal.
  rewrite F. now apply (isInside_iff X).
Qed.

Lemma regular_grid (E : Env) (X : Exact E) m : geo_ok m ->
  (forall i j p q, getPosition m i = Some p -> getPosition m j = Some q -> veq p q -> i = j) /\
  (forall i p, getPosition m i = Some p ->
     exists u, in_range (size m) u /\
       ((fst i - fst u - fst (start m)) mod fst (size m) = 0) /\
       ((snd i - snd u - snd (start m)) mod snd (size m) = 0) /\
       (fst p == fst (pos m) + fst (len m) / 2 - (inject_Z (fst u) + (1#2)) * resn m)%Q /\
       (snd p == snd (pos m) + snd (len m) / 2 - (inject_Z (snd u) + (1#2)) * resn m)%Q /\
       inside m p) /\
  (forall i, getPosition m i = None <-> ~ in_range (size m) i).
Proof.
  intros G. split; [|split].
  - intros. eapply (positions_distinct X); eauto.
  - intros. eapply (grid_positions X); eauto.
  - intros i. destruct (getPosition m i) eqn:K; split; intros H; auto; try discriminate.
    + exfalso. apply H. unfold getPosition, position_from_index in K.
      destruct (index_in_range i (size m)) eqn:Q; [|discriminate]. now apply index_in_range_iff.
    + intros C. unfold getPosition, position_from_index in K.
      rewrite (proj2 (index_in_range_iff i (size m))) in K; auto. discriminate.
Qed.
