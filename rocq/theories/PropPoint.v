(** Property C83: a cell as a point in space, and vectors stored in three layers. *)
From Coq Require Import ZArith QArith String List Bool Lia.
From Verif Require Import Base Mat GridMapMath CostMap Spec DoubleSpec BaseLemmas GeoLemmas CoreProofs CoreProofs2 DoubleGeo DoubleMap PropDouble Samples.
Import ListNotations.
Open Scope Z_scope.

Section Point.
Context {E : Env}.

Lemma at_value m l i v : value_at m l i v -> at_ m l i = Ok v.
Proof. intros (d & D & V). unfold at_. now rewrite D, V. Qed.
Lemma at_missing m l i : ~ has_layer m l -> at_ m l i = Throw OutOfRange.
Proof. intros H. unfold at_. destruct (aget (data m) l) eqn:K; auto. exfalso. apply H. now exists m0. Qed.
Lemma at_outside m l i : reg_ok m -> has_layer m l -> ~ in_range (size m) i -> at_ m l i = Fault OutOfBounds.
Proof.
  intros R [d D] O. unfold at_. rewrite D. destruct (r_mat _ R _ _ D) as (W & A & B).
  assert (mget d (fst i) (snd i) = None) as ->; auto.
  unfold mget. destruct (in_mat d _ _) eqn:K; auto. apply in_mat_iff in K. exfalso. apply O. unfold in_range. lia.
Qed.

Lemma position3_known m l i v p : getPosition m i = Some p -> value_at m l i v -> v <> unknown -> getPosition3 m l i = Ok (Some (p, v)).
Proof.
  intros P V U. unfold getPosition3, isValid_layer. rewrite (at_value _ _ _ _ V), P. cbn [rbind].
  destruct (Z.eqb_spec v NO_INFORMATION); [contradiction|]. cbn [negb]. reflexivity.
Qed.

End Point.

(** getPosition3: false for an unknown cell, otherwise the centre of the cell with its
    cost as height. *)
Theorem C83_position3 : forall (E : Env) m l i,
  (~ has_layer m l -> getPosition3 m l i = Throw OutOfRange) /\
  (reg_ok m -> has_layer m l -> ~ in_range (size m) i -> getPosition3 m l i = Fault OutOfBounds) /\
  (value_at m l i unknown -> getPosition3 m l i = Ok None) /\
  (Exact E -> geo_ok m -> forall v, in_range (size m) i -> value_at m l i v -> v <> unknown ->
     exists p, getPosition3 m l i = Ok (Some (p, v)) /\ veq p (centre m i)).
Proof.
  intros E m l i. split; [|split; [|split]].
  - intros H. unfold getPosition3, isValid_layer. now rewrite at_missing.
  - intros R H O. unfold getPosition3, isValid_layer. now rewrite at_outside.
  - intros V. unfold getPosition3, isValid_layer. now rewrite (at_value _ _ _ _ V).
  - intros X G v I V U. destruct (getPosition_centre X m i G I) as (p & P & C). exists p. split; auto. now apply position3_known.
Qed.
Print Assumptions C83_position3.

Theorem C83_double : forall (E : Env), real_or_double E -> forall W m l i v, W <= 2 ^ 44 -> dgeo W m ->
  in_range (size m) i -> value_at m l i v -> v <> unknown ->
  exists p, getPosition3 m l i = Ok (Some (p, v)) /\ close (blur W m) p (centre m i) /\ getIndex m p = (true, i).
Proof.
  intros E X W m l i v HW G I V U. destruct (C68_roundtrip E X W m i HW G I) as (p & P & C & _ & D).
  exists p. split; [|auto]. now apply position3_known.
Qed.
Print Assumptions C83_double.

(** getVector: false if one of the three layers is unknown there, otherwise their costs
    in the order x, y, z. The layers are looked up in this order, until one is
    unknown. *)
Theorem C83_vector : forall (E : Env) m prefix i,
  let x := (prefix ++ "x")%string in let y := (prefix ++ "y")%string in let z := (prefix ++ "z")%string in
  (forall a b c, value_at m x i a -> value_at m y i b -> value_at m z i c ->
     (a <> unknown -> b <> unknown -> c <> unknown -> getVector m prefix i = Ok (Some (a, b, c))) /\
     (a = unknown \/ b = unknown \/ c = unknown -> getVector m prefix i = Ok None)) /\
  (value_at m x i unknown -> getVector m prefix i = Ok None) /\
  (forall a, value_at m x i a -> a <> unknown -> value_at m y i unknown -> getVector m prefix i = Ok None) /\
  (~ has_layer m x -> getVector m prefix i = Throw OutOfRange) /\
  (forall a, value_at m x i a -> a <> unknown -> ~ has_layer m y -> getVector m prefix i = Throw OutOfRange) /\
  (forall a b, value_at m x i a -> a <> unknown -> value_at m y i b -> b <> unknown -> ~ has_layer m z -> getVector m prefix i = Throw OutOfRange) /\
  (reg_ok m -> has_layer m x -> ~ in_range (size m) i -> getVector m prefix i = Fault OutOfBounds).
Proof.
  intros E m prefix i x y z. unfold getVector. cbv zeta. fold x y z. cbn [isValid_layers isValid_loop].
  assert (U : forall v, v <> unknown -> (v =? NO_INFORMATION) = false) by (intros v H; now apply Z.eqb_neq).
  repeat split.
  - intros A B C. rewrite !(at_value _ _ _ _ H), !(at_value _ _ _ _ H0), !(at_value _ _ _ _ H1). cbn [rbind]. now rewrite !U.
  - intros K. rewrite !(at_value _ _ _ _ H), !(at_value _ _ _ _ H0), !(at_value _ _ _ _ H1). cbn [rbind].
    destruct (Z.eqb_spec a NO_INFORMATION); [reflexivity|]. destruct (Z.eqb_spec b NO_INFORMATION); [reflexivity|].
    destruct (Z.eqb_spec c NO_INFORMATION); [reflexivity|]. destruct K as [|[|]]; contradiction.
  - intros A. now rewrite (at_value _ _ _ _ A).
  - intros a A NA B. rewrite (at_value _ _ _ _ A), (at_value _ _ _ _ B). cbn [rbind]. now rewrite U.
  - intros A. now rewrite (at_missing _ _ _ A).
  - intros a A NA B. rewrite (at_value _ _ _ _ A), (at_missing _ _ _ B). cbn [rbind]. now rewrite U.
  - intros a b A NA B NB C. rewrite (at_value _ _ _ _ A), (at_value _ _ _ _ B), (at_missing _ _ _ C). cbn [rbind]. now rewrite !U.
  - intros R A O. now rewrite (at_outside _ _ _ R A O).
Qed.
Print Assumptions C83_vector.

Local Definition arrows : cmap := Eval vm_compute in
  after (at_set "ny" (1, 3) 255) (after (add_value "nz" 30) (after (add_value "ny" 20) (after (add_value "nx" 10) sample))).

Example C83_case : geo_ok sample /\
  getPosition3 (E := exact_wrap) sample "a" (1, 3) = Ok (Some ((-(3#2), -(7#4))%Q, 8)) /\
  getPosition3 (E := exact_wrap) arrows "ny" (1, 3) = Ok None /\
  getPosition3 (E := exact_wrap) sample "a" (5, 0) = Fault OutOfBounds /\
  getPosition3 (E := exact_wrap) sample "c" (1, 3) = Throw OutOfRange /\
  getVector arrows "n" (2, 3) = Ok (Some (10, 20, 30)) /\ getVector arrows "n" (1, 3) = Ok None /\
  getVector arrows "m" (2, 3) = Throw OutOfRange.
Proof. split; [apply sample_geo|]. conj_vm. Qed.
Example C83_double_case : dgeo 11 decimal' /\ exists p, getPosition3 (E := binary64 BWrap) decimal' "a" (2, 4) = Ok (Some (p, 30)) /\ ~ veq p (centre decimal' (2, 4)).
Proof. split; [dgeo_vm|]. eexists. split; [vm_compute; reflexivity|]. intros [K _]. vm_compute in K. discriminate. Qed.
