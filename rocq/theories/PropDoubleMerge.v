(** Double arithmetic for addDataFrom: more of C20 and C21. *)
From Coq Require Import ZArith QArith Qround Qabs Qfield String List Bool Lia Lqa.
From Coq Require Import ZifyBool.
From Verif Require Import Base Mat GridMapMath GridIter CostMap History BaseLemmas Spec DoubleSpec GeoLemmas CoreProofs CoreProofs2 CoreFinal IterProofs MoveProofs AddDataProofs DoubleGeo DoubleMap PropDouble InflateFinal Samples.
Import ListNotations.
Open Scope Z_scope.

Lemma close_inside a b m p q : close a p q -> (inside_by b m p -> inside_by (a + b) m q).
Proof.
  intros [C0 C1] (I0 & I1 & I2 & I3). apply Qabs_Qle_condition in C0, C1. unfold inside_by. repeat split; lra.
Qed.

Lemma close_sym a p q : close a p q -> close a q p.
Proof. intros [C0 C1]. apply Qabs_Qle_condition in C0, C1. split; apply Qabs_Qle_condition; lra. Qed.

Lemma close_trans a b p q r : close a p q -> close b q r -> close (a + b) p r.
Proof. intros [C0 C1] [D0 D1]. apply Qabs_Qle_condition in C0, C1, D0, D1. split; apply Qabs_Qle_condition; lra. Qed.

Theorem C20_double : forall (E : Env), real_or_double E -> forall W W' m other ow ca ls, W <= 2 ^ 44 -> W' <= 2 ^ 44 ->
  dgeo W m -> reg_ok' m -> dgeo W' other -> reg_ok other ->
  let e := (blur W m + blur W' other)%Q in off_border e m other ->
  let sel := if ca : bool then layers other else ls in
  (forall l, In l sel -> has_layer other l) ->
  (forall b, In b (basic m) -> has_layer m b \/ In b sel) ->
  exists m', addDataFrom other false ow ca ls m = Ret true m' /\ reg_ok' m' /\ same_meta m m' /\
    (exists ex, layers m' = layers m ++ ex) /\
    (forall l, has_layer m' l <-> has_layer m l \/ In l sel) /\
    exists src, covering e m other src /\
    (forall l i v, has_layer m' l -> in_range (size m) i ->
       let takes := taken e m other ow sel src l i in
       (value_at m' l i v <-> takes v \/ (~ (exists w, takes w) /\ value_or_unknown m l i v))).
Proof.
  intros E X W W' m other ow ca ls HW HW' G R Go Ro e CL sel HO HB. pose proof (near_real E X) as N.
  set (at_p := fun i => match getPosition m i with Some p => p | None => (0, 0)%Q end).
  assert (P : forall i, in_range (size m) i -> getPosition m i = Some (at_p i) /\ close (blur W m) (at_p i) (centre m i)).
  { intros i Hi. destruct (position_close N W HW m i G Hi) as (p & Hp & C). unfold at_p. rewrite Hp. auto. }
  set (src := fun i => snd (getIndex other (at_p i))).
  assert (IN : forall i, in_range (size m) i -> inside_by (- e) other (centre m i) ->
    isInside other (at_p i) = true /\ in_range (size other) (src i) /\ close (resn other / 2 + e) (centre m i) (centre other (src i))).
  { intros i Hi I. destruct (P i Hi) as [_ C].
    assert (I' : inside_by (- blur W' other) other (at_p i)).
    { apply (close_inside (blur W m) (- e) other _ _ (close_sym _ _ _ C)) in I. unfold e in I.
      destruct I as (A1 & A2 & A3 & A4). unfold inside_by. repeat split; lra. }
    destruct (C68_lookup E X W' other (at_p i) HW' Go) as [_ L]. destruct (L I') as (j & K1 & K2 & K3).
    split; [now apply (inside_down N W')|]. unfold src. rewrite K1. cbn [snd]. split; [exact K2|].
    pose proof (close_trans _ _ _ _ _ (close_sym _ _ _ C) K3) as [D0 D1]. unfold e. split; lra. }
  assert (OUT : forall i, in_range (size m) i -> ~ inside_by (- e) other (centre m i) -> isInside other (at_p i) = false).
  { intros i Hi I. destruct (isInside other (at_p i)) eqn:K; [exfalso|reflexivity].
    destruct (CL i Hi) as [|NI]; [tauto|]. apply NI. apply (inside_up N W' HW' _ _ Go) in K.
    apply (close_inside _ _ _ _ _ (proj2 (P i Hi))) in K. exact K. }
  assert (DEC : forall i, in_range (size m) i -> inside_by (- e) other (centre m i) \/ ~ inside_by (- e) other (centre m i)).
  { intros i Hi. unfold inside_by.
    destruct (Qlt_le_dec (fst (lower other) - - e) (fst (centre m i))); [|right; lra].
    destruct (Qlt_le_dec (fst (upper other) + - e) (fst (centre m i))); [right; lra|].
    destruct (Qlt_le_dec (snd (lower other) - - e) (snd (centre m i))); [|right; lra].
    destruct (Qlt_le_dec (snd (upper other) + - e) (snd (centre m i))); [right; lra|left; auto]. }
  assert (MT : meets m other).
  { intros i Hi. exists (at_p i). split; [now apply P|]. intros K. destruct (DEC i Hi) as [I|I].
    - now apply (IN i Hi I).
    - rewrite (OUT i Hi I) in K. discriminate. }
  destruct (add_data_any m other ow ca ls (d_start _ _ G) MT R Ro HO HB) as (m' & K1 & K2 & K3 & K4 & K5 & K6).
  exists m'. split; [exact K1|]. split; [exact K2|]. split; [exact K3|]. split; [exact K4|]. split; [exact K5|].
  exists src. split; [intros i Hi I; now apply IN|].
  intros l i v Hl Hi. cbn zeta.
  assert (Off : forall w, picks other m l i w <-> inside_by (- e) other (centre m i) /\ value_at other l (src i) w /\ w <> unknown).
  { intros w. unfold picks. rewrite (proj1 (P i Hi)).
    transitivity (offer other (at_p i) l = Some w). { split; [intros (p' & P1 & P2); congruence|eauto]. }
    unfold offer. destruct (DEC i Hi) as [I|I].
    - destruct (IN i Hi I) as (-> & _). fold (src i). rewrite <- CoreProofs2.at_value.
      destruct (at_ other l (src i)) as [u| |]; [|split; [discriminate|intros (_ & K & _); discriminate]..].
      destruct (Z.eqb_spec u NO_INFORMATION) as [->|NU].
      + split; [discriminate|]. intros (_ & K & U). exfalso. apply U. now injection K as <-.
      + split; [intros K; injection K as ->; auto|intros (_ & K & _); now injection K as ->].
    - rewrite (OUT i Hi I). split; [discriminate|tauto]. }
  specialize (K6 l i v Hl Hi). cbn zeta in K6. fold sel in K6. unfold taken. rewrite K6, Off. split; intros [K|[K K']]; auto; right; split; auto.
  - intros (w & T1 & T2 & T3). apply K. exists w. split; auto. split; auto. now apply Off.
  - intros (w & T1 & T2 & T3). apply K. exists w. split; auto. split; auto. now apply Off.
Qed.
Print Assumptions C20_double.

Theorem C21_double : forall (E : Env), real_or_double E -> forall W W' m other ca ls i, W <= 2 ^ 44 -> W' <= 2 ^ 44 ->
  dgeo W m -> reg_ok' m -> dgeo W' other -> reg_ok other -> off_border (blur W m + blur W' other) m other ->
  let sel := if ca : bool then layers other else ls in
  (forall l, In l sel -> has_layer other l) -> (forall b, In b (basic m) -> has_layer m b \/ In b sel) ->
  in_range (size m) i -> valid_cell m i ->
  exists m', addDataFrom other false false ca ls m = Ret true m' /\
    forall l v, has_layer m l -> (value_at m' l i v <-> value_at m l i v).
Proof.
  intros E X W W' m other ca ls i HW HW' G R Go Ro CL sel HO HB Hi V.
  destruct (C20_double E X W W' m other false ca ls HW HW' G R Go Ro CL HO HB) as (m' & K1 & _ & _ & _ & K5 & src & _ & K6).
  exists m'. split; [exact K1|]. intros l v Hl. rewrite (K6 l i v) by (auto; apply K5; auto).
  unfold value_or_unknown, taken. split.
  - intros [(_ & [T|T] & _)|(_ & [T|[T _]])]; [discriminate|tauto|exact T|tauto].
  - intros T. right. split; [|auto]. intros (w & _ & [F|F] & _); [discriminate|tauto].
Qed.
Print Assumptions C21_double.

(** Deciding hypotheses by computation. *)
Definition inside_byb (e : Q) (m : cmap) (p : vec) : bool :=
  Qlt_bool (fst (lower m) - e) (fst p) && Qle_bool (fst p) (fst (upper m) + e) &&
  (Qlt_bool (snd (lower m) - e) (snd p) && Qle_bool (snd p) (snd (upper m) + e)).
Lemma inside_byb_iff e m p : inside_byb e m p = true <-> inside_by e m p.
Proof. unfold inside_byb, inside_by. rewrite !andb_true_iff, !Qlt_bool_iff, !Qle_bool_iff. tauto. Qed.
Definition off_borderb (e : Q) (m other : cmap) : bool :=
  forallb (fun i => inside_byb (- e) other (centre m i) || negb (inside_byb e other (centre m i))) (visit_list (size m) (start m)).
Lemma off_borderb_ok e m other : in_range (size m) (start m) -> off_borderb e m other = true -> off_border e m other.
Proof.
  intros S H i Hi. unfold off_borderb in H. rewrite forallb_forall in H. apply (visit_list_In _ _ _ S) in Hi. apply H in Hi.
  apply orb_true_iff in Hi as [K|K]; [left; now apply inside_byb_iff|right]. rewrite <- inside_byb_iff. apply negb_true_iff in K. congruence.
Qed.

(** A patch of 3 x 2 cells of 0.3 m onto 7 x 7 cells of 0.2 m. *)
Definition coarse : cmap := Eval vm_compute in
  number_cells "b" 60 (after (setGeometry (E := binary64 BWrap) (tenths 9, tenths 6) (tenths 3) (tenths 2, tenths (-1))) (new_map ["b"]%string)).
Example C20_double_case : let m' := after (addDataFrom (E := binary64 BWrap) coarse false true true []) decimal in
  dgeo 11 decimal /\ reg_ok' decimal /\ dgeo 11 coarse /\ reg_ok coarse /\ off_border (blur 11 decimal + blur 11 coarse) decimal coarse /\
  layers m' = layers decimal ++ ["b"%string] /\ map (at_ m' "b") [(0, 0); (2, 4); (2, 6); (4, 5); (5, 6); (5, 3)] = map Ok [255; 60; 61; 62; 65; 255].
Proof.
  cbv zeta. split; [dgeo_vm|]. split; [apply reg_okb_ok; vm_compute; reflexivity|]. split; [dgeo_vm|].
  split; [apply reg_okb_ok; vm_compute; reflexivity|]. split; [apply off_borderb_ok; vm_compute; [intuition discriminate|reflexivity]|].
  conj_vm.
Qed.

(** Near the border, C20_double needs [off_border]: one cell of 1 m at (-0.5, 0) takes
    its value from a cell more than six cells of the other map away (C68_border_refuted). *)
Definition spot : cmap := Eval vm_compute in after (setGeometry (E := binary64 BWrap) (1, 1)%Q 1 (-1#2, 0)%Q) (new_map ["a"%string]).
Definition lapped7 : cmap := Eval vm_compute in after (at_set "a" (6, 3) 7) (number_cells "a" 100 lapped).

Theorem C20_border_refuted : exists m other m' l i v, dgeo 11 m /\ reg_ok' m /\ dgeo 11 other /\ reg_ok other /\ in_range (size m) i /\
  addDataFrom (E := binary64 BWrap) other false true true [] m = Ret true m' /\ value_at m' l i v /\
  forall j, value_at other l j v -> (6 * resn other < Qabs (fst (centre other j) - fst (centre m i)))%Q.
Proof.
  exists spot, lapped7, (after (addDataFrom (E := binary64 BWrap) lapped7 false true true []) spot), "a"%string, (0, 0), 7.
  split; [dgeo_vm|]. split; [apply reg_okb_ok; vm_compute; reflexivity|]. split; [dgeo_vm|].
  assert (R : reg_ok' lapped7) by (apply reg_okb_ok; vm_compute; reflexivity). split; [apply R|].
  split; [vm_compute; intuition discriminate|]. split; [vm_compute; reflexivity|]. split; [apply at_value; vm_compute; reflexivity|].
  intros j V. pose proof (value_range _ _ _ _ (proj1 R) V) as J. apply at_value in V.
  apply (visit_list_In _ (start lapped7)) in J; [|vm_compute; intuition discriminate].
  assert (K : forallb (fun j => match at_ lapped7 "a" j with Ok 7 => Qlt_bool (6 * resn lapped7) (Qabs (fst (centre lapped7 j) - fst (centre spot (0, 0)))) | _ => true end)
    (visit_list (size lapped7) (start lapped7)) = true) by (vm_compute; reflexivity).
  rewrite forallb_forall in K. apply K in J. rewrite V in J. now apply Qlt_bool_iff in J.
Qed.
Print Assumptions C20_border_refuted.

(** With "a" as basic layer, only the cleared cell (4, 5) takes a value. *)
Definition guarded : cmap := Eval vm_compute in after (at_set "a" (4, 5) 255) (after (setBasicLayers ["a"%string]) decimal).
Definition coarse_a : cmap := Eval vm_compute in
  number_cells "a" 60 (after (setGeometry (E := binary64 BWrap) (tenths 9, tenths 6) (tenths 3) (tenths 2, tenths (-1))) (new_map ["a"]%string)).
Example C21_double_case : let m' := after (addDataFrom (E := binary64 BWrap) coarse_a false false true []) guarded in
  dgeo 11 guarded /\ reg_ok' guarded /\ dgeo 11 coarse_a /\ reg_ok coarse_a /\
  off_border (blur 11 guarded + blur 11 coarse_a) guarded coarse_a /\ valid_cell guarded (2, 4) /\
  map (at_ guarded "a") [(2, 4); (4, 5)] = map Ok [30; 255] /\ map (at_ m' "a") [(2, 4); (4, 5)] = map Ok [30; 62].
Proof.
  cbv zeta. split; [dgeo_vm|]. split; [apply reg_okb_ok; vm_compute; reflexivity|]. split; [dgeo_vm|].
  split; [apply reg_okb_ok; vm_compute; reflexivity|]. split; [apply off_borderb_ok; vm_compute; [intuition discriminate|reflexivity]|].
  split.
  - assert (basic guarded = ["a"%string]) as B by (vm_compute; reflexivity). unfold valid_cell. rewrite B.
    split; [discriminate|]. intros l [<-|[]]. exists 30. split; [apply at_value; vm_compute; reflexivity|unfold unknown; lia].
  - conj_vm.
Qed.
