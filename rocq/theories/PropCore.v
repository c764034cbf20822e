(** Properties C01-C10: layers, cells, clearing, geometry setup. *)
From Coq Require Import ZArith QArith Qabs String List Bool Lia.
From Verif Require Import Base Mat GridMapMath CostMap History Spec BaseLemmas CoreProofs CoreProofs2 CoreFinal Samples.
Import ListNotations.
Open Scope Z_scope.

(** C01. After any history of public calls (whether they return or throw),
    getLayers() lists the existing layers exactly once, every matrix has the
    size of the map, and every in-range cell of every layer can be read. *)
Theorem C01_registry_consistent : forall (E : Env) names m,
  rnd_nonneg -> NoDup names -> reach (new_map names) m ->
  NoDup (layers m) /\ (forall l, In l (layers m) <-> exists_layer m l = true) /\
  (forall l d, get m l = Ok d -> mrows d = fst (size m) /\ mcols d = snd (size m)) /\
  (forall l i, In l (layers m) -> in_range (size m) i -> exists v, at_ m l i = Ok v).
Proof. exact registry_final. Qed.
Print Assumptions C01_registry_consistent.

(** The hypothesis on rounding holds for IEEE double and for exact arithmetic. *)
Theorem C01_rounding_ok : forall p, rnd_nonneg (E := binary64 p) /\ rnd_nonneg (E := exact_wrap).
Proof. exact (fun p => conj (rne_nonneg 53) (exact_nonneg exact_wrap exact_wrap_Exact)). Qed.
Print Assumptions C01_rounding_ok.

Example C01_case : exists m, reach (E := binary64 BClamp) (new_map ["a"; "b"]%string) m /\
  layers m = ["b"; "c"]%string /\ size m = (4, 3) /\ at_ m "c" (3, 2) = Ok 7.
Proof.
  pose (E := binary64 BClamp).
  pose (m1 := after (setGeometry (4#1, 3#1)%Q 1%Q (0, 0)%Q) (new_map ["a"; "b"]%string)).
  pose (m2 := after (add_value "c" 7) m1).
  pose (m3 := after (erase "a") m2).
  exists m3. split; [|split; [|split]]; [|vm_compute; reflexivity..].
  eapply reach_step with (o := OpErase "a") (m1 := m2); [|exact I|left; vm_compute; reflexivity].
  eapply reach_step with (o := OpAddValue "c" 7) (m1 := m1); [|exact I|left; vm_compute; reflexivity].
  eapply reach_step with (o := OpSetGeometry (4#1, 3#1)%Q 1%Q (0, 0)%Q) (m1 := new_map ["a"; "b"]%string); [|exact I|left; vm_compute; reflexivity].
  apply reach_refl.
Qed.

(** C02. *)
Theorem C02_add_get : forall l d m,
  mrows d = fst (size m) -> mcols d = snd (size m) ->
  exists m', add l d m = Ret tt m' /\
    get m' l = Ok d /\
    (forall l', l' <> l -> get m' l' = get m l') /\
    same_meta m m' /\
    layers m' = (if exists_layer m l then layers m else layers m ++ [l]) /\
    (forall l', exists_layer m' l' = true <-> exists_layer m l' = true \/ l' = l).
Proof. exact add_ok. Qed.
Print Assumptions C02_add_get.

Theorem C02_add_value : forall m l v, reg_ok' m ->
  exists m', add_value l v m = Ret tt m' /\
    (forall i, in_range (size m) i -> at_ m' l i = Ok v) /\
    (forall l', l' <> l -> get m' l' = get m l') /\
    same_meta m m' /\
    layers m' = (if exists_layer m l then layers m else layers m ++ [l]) /\
    (forall l', exists_layer m' l' = true <-> exists_layer m l' = true \/ l' = l).
Proof. exact add_value_final. Qed.
Print Assumptions C02_add_value.

(** A matrix of another size trips the assertion. *)
Theorem C02_add_wrong_size : forall l d m,
  (mrows d <> fst (size m) \/ mcols d <> snd (size m)) -> add l d m = Flt AssertFailed.
Proof. exact add_assert. Qed.
Print Assumptions C02_add_wrong_size.

Example C02_case : mrows (mconst 5 4 9) = fst (size sample) /\ mcols (mconst 5 4 9) = snd (size sample) /\
  reg_ok' sample /\ exists_layer sample "a" = true /\ exists_layer sample "z" = false.
Proof. split; [reflexivity|]. split; [reflexivity|]. split; [exact sample_reg|]. split; reflexivity. Qed.

(** C03. *)
Theorem C03_erase : forall m l, reg_ok m ->
  (exists_layer m l = true -> exists m', erase l m = Ret true m' /\
    exists_layer m' l = false /\ ~ In l (layers m') /\ (NoDup (basic m) -> ~ In l (basic m')) /\
    (forall l', l' <> l -> get m' l' = get m l') /\
    layers m' = filter (fun x => negb (String.eqb l x)) (layers m) /\
    (NoDup (basic m) -> basic m' = filter (fun x => negb (String.eqb l x)) (basic m)) /\
    frame m' = frame m /\ stamp m' = stamp m /\ len m' = len m /\ resn m' = resn m /\
    pos m' = pos m /\ size m' = size m /\ start m' = start m) /\
  (exists_layer m l = false -> erase l m = Ret false m).
Proof. exact erase_final. Qed.
Print Assumptions C03_erase.

Example C03_case : reg_ok sample /\ exists_layer sample "a" = true /\ exists_layer sample "z" = false /\
  layers (after (erase "a") sample) = ["b"%string].
Proof. split; [apply sample_reg|]. conj_vm. Qed.

(** A name given twice to setBasicLayers is removed only once. *)
Theorem C03_basic_twice_refuted : exists m l m', reg_ok' m /\ exists_layer m l = true /\
  erase l m = Ret true m' /\ exists_layer m' l = false /\ In l (basic m') /\ clearBasic m' = Exn OutOfRange m'.
Proof.
  exists (after (setBasicLayers ["a"; "a"]%string) sample), "a"%string. eexists.
  split; [apply reg_okb_ok; vm_compute; reflexivity|]. split; [reflexivity|]. split; [vm_compute; reflexivity|].
  split; [reflexivity|]. split; [now left|reflexivity].
Qed.
Print Assumptions C03_basic_twice_refuted.

(** C04. *)
Theorem C04_write_read : forall m l i v, reg_ok m -> exists_layer m l = true -> in_range (size m) i ->
  exists m', at_set l i v m = Ret tt m' /\
    at_ m' l i = Ok v /\
    (forall l' i', (l' <> l \/ i' <> i) -> at_ m' l' i' = at_ m l' i') /\
    layers m' = layers m /\ same_meta m m' /\
    (forall l', exists_layer m' l' = exists_layer m l').
Proof. exact at_final. Qed.
Print Assumptions C04_write_read.

Example C04_case : reg_ok sample /\ exists_layer sample "a" = true /\ in_range (size sample) (4, 3) /\
  at_ sample "a" (4, 3) = Ok 20 /\ at_ (after (at_set "a" (4, 3) 77) sample) "a" (4, 3) = Ok 77.
Proof. split; [apply sample_reg|]. split; [reflexivity|]. split; [vm_compute; intuition discriminate|]. split; reflexivity. Qed.

(** C05. *)
Theorem C05_missing_layer : forall (E : Env) m l, exists_layer m l = false ->
  get m l = Throw OutOfRange /\
  (forall i, at_ m l i = Throw OutOfRange) /\
  (forall i v, at_set l i v m = Exn OutOfRange m) /\
  (forall p, atPosition m l p = Throw OutOfRange) /\
  (forall p v, atPosition_set l p v m = Exn OutOfRange m) /\
  clear l m = Exn OutOfRange m /\
  erase l m = Ret false m /\
  (forall i, isValid_layer m i l = Throw OutOfRange).
Proof. exact missing_final. Qed.
Print Assumptions C05_missing_layer.

Example C05_case : exists_layer sample "z" = false /\ isInside (E := exact_wrap) sample (0, 0)%Q = false
  /\ isInside (E := exact_wrap) sample (-(1#1), -2#1)%Q = true.
Proof. conj_vm. Qed.

(** C06. *)
Theorem C06_clear : forall m l, reg_ok m -> exists_layer m l = true ->
  exists m', clear l m = Ret tt m' /\
    (forall i, in_range (size m) i -> at_ m' l i = Ok unknown) /\
    (forall l', l' <> l -> get m' l' = get m l') /\
    (forall l', exists_layer m' l' = exists_layer m l') /\
    layers m' = layers m /\ same_meta m m'.
Proof. exact clear_final. Qed.
Print Assumptions C06_clear.

Theorem C06_clearAll : forall m, reg_ok m ->
  exists m', clearAll m = Ret tt m' /\
    (forall l i, exists_layer m l = true -> in_range (size m) i -> at_ m' l i = Ok unknown) /\
    (forall l', exists_layer m' l' = exists_layer m l') /\
    layers m' = layers m /\ same_meta m m'.
Proof. exact clearAll_final. Qed.
Print Assumptions C06_clearAll.

Theorem C06_clearBasic : forall m, reg_ok' m ->
  ((forall l, In l (basic m) -> exists_layer m l = true) ->
   exists m', clearBasic m = Ret tt m' /\
    (forall l i, In l (basic m) -> in_range (size m) i -> at_ m' l i = Ok unknown) /\
    (forall l, ~ In l (basic m) -> get m' l = get m l) /\
    (forall l', exists_layer m' l' = exists_layer m l') /\
    layers m' = layers m /\ same_meta m m') /\
  (forall pre l post, basic m = pre ++ l :: post -> (forall l', In l' pre -> exists_layer m l' = true) -> exists_layer m l = false ->
   exists m', clearBasic m = Exn OutOfRange m' /\
    (forall l' i, In l' pre -> in_range (size m) i -> at_ m' l' i = Ok unknown) /\
    (forall l', ~ In l' pre -> get m' l' = get m l') /\
    (forall l', exists_layer m' l' = exists_layer m l') /\
    layers m' = layers m /\ same_meta m m').
Proof. exact clearBasic_final. Qed.
Print Assumptions C06_clearBasic.

Example C06_case : reg_ok' (after (setBasicLayers ["b"%string]) sample) /\
  basic (after (setBasicLayers ["b"%string]) sample) = ["b"%string] /\
  exists_layer (after (setBasicLayers ["b"%string]) sample) "b" = true /\
  at_ (after clearBasic (after (setBasicLayers ["b"%string]) sample)) "b" (1, 1) = Ok 255 /\
  at_ (after clearBasic (after (setBasicLayers ["b"%string]) sample)) "a" (1, 1) = Ok 6 /\
  at_ (after clearBasic (after (setBasicLayers ["b"; "z"; "a"]%string) sample)) "b" (1, 1) = Ok 255 /\
  at_ (after clearBasic (after (setBasicLayers ["b"; "z"; "a"]%string) sample)) "a" (1, 1) = Ok 6.
Proof. split; [apply reg_okb_ok; vm_compute; reflexivity|]. conj_vm. Qed.

(** C07. *)
Theorem C07_valid : forall m i, reg_ok m -> in_range (size m) i ->
  (forall l v, at_ m l i = Ok v -> isValid_layer m i l = Ok (negb (v =? 255))) /\
  (forall ls, (forall l, In l ls -> exists_layer m l = true) ->
     exists b, isValid_layers m i ls = Ok b /\
       (b = true <-> ls <> [] /\ forall l, In l ls -> exists v, at_ m l i = Ok v /\ v <> unknown)) /\
  (forall pre l post, (forall x, In x pre -> exists v, at_ m x i = Ok v /\ v <> unknown) ->
     (exists_layer m l = false -> isValid_layers m i (pre ++ l :: post) = Throw OutOfRange) /\
     (at_ m l i = Ok unknown -> isValid_layers m i (pre ++ l :: post) = Ok false)) /\
  isValid m i = isValid_layers m i (basic m) /\
  (basic m = [] -> isValid m i = Ok false).
Proof. exact isValid_final. Qed.
Print Assumptions C07_valid.

Example C07_case : reg_ok sample /\ in_range (size sample) (2, 2) /\
  isValid_layers sample (2, 2) ["a"; "b"]%string = Ok true /\ isValid sample (2, 2) = Ok false /\
  isValid_layers sample (2, 2) ["a"; "z"; "b"]%string = Throw OutOfRange.
Proof. split; [apply sample_reg|]. split; [vm_compute; intuition discriminate|]. repeat split; reflexivity. Qed.

(** C08. *)
Theorem C08_hasSameLayers : forall m o, reg_ok m ->
  (hasSameLayers m o = true <-> forall l, exists_layer m l = true -> exists_layer o l = true).
Proof. exact hasSameLayers_ok. Qed.
Print Assumptions C08_hasSameLayers.

Example C08_case : reg_ok sample /\ hasSameLayers sample (new_map ["c"; "b"; "a"]%string) = true /\
  hasSameLayers sample (new_map ["b"]%string) = false.
Proof. split; [apply sample_reg|]. split; reflexivity. Qed.

(** C09. Distinctness of the constructor's names is needed: with a repeated
    name, erase leaves a listed layer that does not exist, and a later move
    throws. *)
Theorem C09_duplicate_names_refuted : exists names l m1 m2 m3,
  erase l (new_map names) = Ret true m1 /\ In l (layers m1) /\ exists_layer m1 l = false /\
  setGeometry (E := binary64 BClamp) (4#1, 4#1)%Q 1%Q (0, 0)%Q m1 = Ret tt m2 /\
  move (E := binary64 BClamp) (1, 0)%Q m2 = Exn OutOfRange m3.
Proof.
  exists ["a"; "a"]%string, "a"%string.
  eexists; eexists; eexists. split; [vm_compute; reflexivity|].
  split; [vm_compute; auto|]. split; [vm_compute; reflexivity|].
  split; [vm_compute; reflexivity|]. vm_compute; reflexivity.
Qed.
Print Assumptions C09_duplicate_names_refuted.

(** C10. *)
Theorem C10_setGeometry : forall (E : Env), Exact E -> forall l r p m, reg_ok m ->
  (0 < fst l)%Q -> (0 < snd l)%Q -> (0 < r)%Q ->
  exists m', setGeometry l r p m = Ret tt m' /\
    (inject_Z (fst (size m')) - (1#2) <= fst l / r < inject_Z (fst (size m')) + (1#2))%Q /\
    (inject_Z (snd (size m')) - (1#2) <= snd l / r < inject_Z (snd (size m')) + (1#2))%Q /\
    (fst (len m') == inject_Z (fst (size m')) * r)%Q /\ (snd (len m') == inject_Z (snd (size m')) * r)%Q /\
    (Qabs (fst (len m') - fst l) <= r / 2)%Q /\ (Qabs (snd (len m') - snd l) <= r / 2)%Q /\
    resn m' = r /\ pos m' = p /\ start m' = (0, 0) /\
    layers m' = layers m /\ basic m' = basic m /\ frame m' = frame m /\ stamp m' = stamp m /\
    (forall l, exists_layer m' l = exists_layer m l) /\
    (forall l i, exists_layer m l = true -> in_range (size m') i -> at_ m' l i = Ok unknown).
Proof. exact setGeometry_final. Qed.
Print Assumptions C10_setGeometry.

Theorem C10_setGeometry_assert : forall (E : Env) l r p m,
  ~ (0 < fst l /\ 0 < snd l /\ 0 < r)%Q -> setGeometry l r p m = Flt AssertFailed.
Proof. exact (@setGeometry_assert). Qed.
Print Assumptions C10_setGeometry_assert.

Example C10_case : Exact exact_wrap /\ reg_ok sample /\
  size (after (setGeometry (E := exact_wrap) (10#3, 1#1)%Q (1#2) (7#1, 0)%Q) sample) = (7, 2).
Proof. split; [exact exact_wrap_Exact|]. split; [apply sample_reg|]. vm_compute. reflexivity. Qed.
