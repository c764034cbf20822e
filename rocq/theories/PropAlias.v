(** Properties C91 and C92: arguments that are parts of the map. *)
From Coq Require Import ZArith QArith Qabs String List Bool Lia Lqa.
From Verif Require Import Base BaseLemmas Mat GridMapMath GridIter CostMap Alias Spec CoreProofs CoreProofs2 CoreFinal IterProofs AddDataProofs FloatLemmas DoubleSpec DoubleGeo DoubleMap Samples PropDouble.
Import ListNotations.
Open Scope Z_scope.

(** Without basic layers nothing is read after the name moved. *)
Theorem C91_plain : forall m k l, nth_error (layers m) k = Some l -> basic m = [] -> erase_slot k m = erase l m.
Proof.
  intros m k l N B. unfold erase_slot, erase. rewrite N. destruct (amem (data m) l); cbn; [|reflexivity].
  destruct (existsb (String.eqb l) (layers m)); cbn; [|reflexivity]. rewrite B. destruct m; cbn in *. now subst.
Qed.
Print Assumptions C91_plain.

Lemma remove_first_split l : forall pre post, ~ In l pre -> remove_first l (pre ++ l :: post) = pre ++ post.
Proof.
  induction pre as [|x pre IH]; intros post N; cbn.
  - now rewrite String.eqb_refl.
  - destruct (String.eqb_spec l x) as [->|]; [exfalso; apply N; now left|]. f_equal. apply IH. intros H. apply N. now right.
Qed.

Lemma adel_other {A} (d : list (string * A)) l x : x <> l -> aget (adel d l) x = aget d x.
Proof.
  intros N. induction d as [|(k, v) d IH]; cbn; auto. destruct (String.eqb_spec l k) as [->|]; cbn.
  - destruct (String.eqb_spec x k); [contradiction|reflexivity].
  - now rewrite IH.
Qed.
Lemma adel_gone {A} (d : list (string * A)) l : NoDup (akeys d) -> aget (adel d l) l = None.
Proof.
  induction d as [|(k, v) d IH]; cbn; auto. intros N. inversion N; subst. destruct (String.eqb_spec l k) as [->|]; cbn.
  - destruct (aget d k) eqn:K; auto. exfalso. apply H1. clear -K. induction d as [|(k', v') d IH]; cbn in *; [discriminate|].
    destruct (String.eqb_spec k k'); [now left|]. right. now apply IH.
  - destruct (String.eqb_spec l k); [contradiction|]. now apply IH.
Qed.
Lemma remove_first_In n : forall bs x, x <> n -> In x bs -> In x (remove_first n bs).
Proof.
  induction bs as [|y bs IH]; cbn; intros x N H; auto. destruct (String.eqb_spec n y) as [->|].
  - destruct H; [congruence|auto].
  - destruct H; [now left|right; auto].
Qed.
Lemma remove_first_not n : forall bs, NoDup bs -> ~ In n (remove_first n bs).
Proof.
  induction bs as [|y bs IH]; cbn; intros N; auto. inversion N; subst. destruct (String.eqb_spec n y) as [->|]; auto.
  intros [->|H]; [congruence|]. now apply IH.
Qed.
Lemma remove_first_sub n : forall bs x, In x (remove_first n bs) -> In x bs.
Proof.
  induction bs as [|y bs IH]; cbn; intros x H; auto. destruct (String.eqb n y); auto. destruct H; auto.
Qed.

Lemma mid_not (l : string) pre post : NoDup (pre ++ l :: post) -> ~ In l pre.
Proof. intros N H. apply NoDup_remove_2 in N. apply N, in_or_app. now left. Qed.

Lemma listed m l : reg_ok m -> In l (layers m) -> amem (data m) l = true /\ smem l (layers m) = true.
Proof.
  intros R H. split; [|now apply smem_In]. apply amem_In. now apply R.
Qed.

Lemma clear_missing l : forall bs s, In l bs -> aget (data s) l = None -> exists m'', mfor bs clear s = Exn OutOfRange m''.
Proof.
  induction bs as [|y t IH]; intros s IR GS; [contradiction|]. cbn [mfor]. unfold clear at 1, bind.
  destruct (aget (data s) y) as [d|] eqn:D; [|eauto]. destruct IR as [->|IR]; [congruence|].
  apply IH; auto. cbn. clear -GS. induction (data s) as [|(k, v) t' IH]; cbn in *; auto.
  destruct (String.eqb_spec y k); cbn; destruct (String.eqb_spec l k); auto; discriminate.
Qed.

(** [l] is not the last layer: its data goes as it should, but it is the name of the layer
    behind it that leaves the basic layers. So [l] stays a basic layer without data, and
    clearBasic throws from then on. *)
Theorem C91_next : forall m pre l n post, reg_ok m -> layers m = pre ++ l :: n :: post -> NoDup (basic m) -> basic m <> [] ->
  exists m', erase_slot (length pre) m = Ret true m' /\
    ~ has_layer m' l /\ (forall x, x <> l -> get m' x = get m x) /\ layers m' = pre ++ n :: post /\
    (forall x, In x (basic m') <-> In x (basic m) /\ x <> n) /\
    frame m' = frame m /\ stamp m' = stamp m /\ len m' = len m /\ resn m' = resn m /\
    pos m' = pos m /\ size m' = size m /\ start m' = start m /\
    (In l (basic m) -> In l (basic m') /\ exists m'', clearBasic m' = Exn OutOfRange m'').
Proof.
  intros m pre l n post R L NB B. pose proof (r_nodup _ R) as ND. rewrite L in ND.
  destruct (listed m l R) as [HA HS]; [rewrite L; apply in_or_app; right; now left|].
  unfold erase_slot. rewrite L. rewrite nth_error_app2, Nat.sub_diag by lia. cbn [nth_error]. rewrite HA. cbn [negb].
  change (layers (set_data m (adel (data m) l))) with (layers m). rewrite HS. cbn [negb].
  cbn [basic set_layers set_data layers]. rewrite L, remove_first_split by (eapply mid_not; eauto).
  destruct (basic m) as [|b bs] eqn:Hb; [contradiction|]. rewrite <- Hb in *.
  rewrite nth_error_app2, Nat.sub_diag by lia. cbn [nth_error].
  eexists. split; [reflexivity|]. cbn.
  assert (G : aget (adel (data m) l) l = None) by (apply adel_gone, R).
  split; [intros [d D]; cbn in D; congruence|].
  split; [intros x Hx; unfold get; cbn; now rewrite adel_other|]. split; [reflexivity|].
  assert (LN : l <> n).
  { intros ->. apply NoDup_remove_2 in ND. apply ND, in_or_app. right. now left. }
  split.
  { intros x. split.
    - intros H. split; [now apply remove_first_sub in H|]. intros ->. now apply remove_first_not in H.
    - intros [H N]. now apply remove_first_In. }
  do 7 (split; [reflexivity|]). intros IL.
  assert (IR : In l (remove_first n (basic m))) by now apply remove_first_In.
  split; [exact IR|]. unfold clearBasic. cbn [basic set_basic].
  eapply clear_missing; [exact IR|exact G].
Qed.
Print Assumptions C91_next.

(** [l] is the last layer: the search reads a destroyed string. *)
Theorem C91_last : forall m pre l, reg_ok m -> layers m = pre ++ [l] -> basic m <> [] -> erase_slot (length pre) m = Flt Uninit.
Proof.
  intros m pre l R L B. pose proof (r_nodup _ R) as ND. rewrite L in ND.
  destruct (listed m l R) as [HA HS]; [rewrite L; apply in_or_app; right; now left|].
  unfold erase_slot. rewrite L. rewrite nth_error_app2, Nat.sub_diag by lia. cbn [nth_error]. rewrite HA. cbn [negb].
  change (layers (set_data m (adel (data m) l))) with (layers m). rewrite HS. cbn [negb].
  cbn [basic set_layers set_data layers]. rewrite L, remove_first_split by (eapply mid_not; eauto).
  destruct (basic m); [contradiction|]. rewrite nth_error_app2, app_nil_r, Nat.sub_diag by lia. reflexivity.
Qed.
Print Assumptions C91_last.

(** A map with the layers a, b, of which a is basic. *)
Definition two : cmap := set_basic sample ["a"%string].
Example C91_case : reg_ok two /\ layers two = ["a"; "b"]%string /\
  match erase_slot 0 two, erase "a" two with
  | Ret true m, Ret true m' => layers m = ["b"%string] /\ basic m = ["a"%string] /\ layers m' = ["b"%string] /\ basic m' = []
  | _, _ => False
  end /\ erase_slot 1 two = Flt Uninit.
Proof. split; [refine (proj1 (reg_okb_ok two _)); vm_compute; reflexivity|]. vm_compute. auto 10. Qed.

(** ** The map as its own argument *)

Lemma lupd_same {A} : forall (l : list A) n v, nth_error l n = Some v -> lupd l n v = l.
Proof. induction l as [|x l IH]; intros [|n] v H; cbn in *; try discriminate; [congruence|]. f_equal. now apply IH. Qed.
Lemma aset_same {A} (d : list (string * A)) l v : aget d l = Some v -> aset d l v = d.
Proof.
  induction d as [|(k, w) d IH]; cbn; [discriminate|]. destruct (String.eqb_spec l k); intros H; [congruence|]. f_equal. auto.
Qed.
Lemma at_set_same m l i v : at_ m l i = Ok v -> at_set l i v m = Ret tt m.
Proof.
  unfold at_, at_set. destruct (aget (data m) l) as [d|] eqn:D; [|discriminate]. intros H.
  destruct (mget d (fst i) (snd i)) as [w|] eqn:G; [|discriminate]. injection H as ->.
  unfold mget in G. unfold mset. destruct (in_mat d (fst i) (snd i)); [|discriminate]. rewrite (lupd_same _ _ _ G).
  replace (Mat (mrows d) (mcols d) (mcoef d)) with d by now destruct d.
  rewrite aset_same by auto. now destruct m.
Qed.

Lemma isValid_some m i ls : (forall l, In l ls -> exists v, at_ m l i = Ok v) -> exists b, isValid_layers m i ls = Ok b.
Proof.
  intros H. unfold isValid_layers. destruct ls as [|l t]; [eauto|].
  revert H. generalize (l :: t). clear. induction l as [|l t IH]; intros H; cbn; [eauto|].
  destruct (H l (or_introl eq_refl)) as [v V]. rewrite V. cbn. destruct (v =? NO_INFORMATION); [eauto|].
  apply IH. intros x Hx. apply H. now right.
Qed.

Lemma cells_exist m l i : reg_ok m -> has_layer m l -> in_range (size m) i -> exists v, at_ m l i = Ok v.
Proof.
  intros R [d D] [I J]. destruct (r_mat _ R _ _ D) as (WF & HR & HC).
  destruct (proj2 (mget_Some_iff d (fst i) (snd i) WF)) as [v V]; [lia|].
  exists v. unfold at_. rewrite D, V. reflexivity.
Qed.

Section Self.
Context {E : Env} (N : Near E) (W : Z) (HW : W <= 2 ^ 44).

Lemma merge_self m over ls i : dgeo W m -> reg_ok m -> basics_exist m -> (forall l, In l ls -> has_layer m l) -> in_range (size m) i ->
  merge_cell_self over ls i m = Ret tt m.
Proof.
  intros G R B L I. destruct (roundtrip_map N W HW m i G I) as (p & P & _ & IN & GI).
  unfold merge_cell_self, bind, lift. unfold isValid.
  destruct (isValid_some m i (basic m)) as [b Hb]; [intros l Hl; apply cells_exist; auto|].
  rewrite Hb. destruct (b && negb over); [reflexivity|]. rewrite P, IN, GI. cbn [negb snd].
  clear Hb. induction ls as [|l ls IH]; [reflexivity|]. cbn [mfor].
  destruct (cells_exist m l i R (L l (or_introl eq_refl)) I) as [v V].
  unfold bind, lift, isValid_layer. rewrite V. cbn [rbind].
  assert (T : (if v =? NO_INFORMATION then Ret tt m else at_set l i v m) = Ret tt m).
  { destruct (v =? NO_INFORMATION); [reflexivity|]. now apply at_set_same. }
  destruct (v =? NO_INFORMATION); cbn [negb]; [unfold ret at 1|rewrite T]; apply IH; intros x Hx; apply L; now right.
Qed.

Lemma same_axis c L : extend_axis c L c L = (c, L, false).
Proof.
  unfold extend_axis.
  assert (Q : forall x, Qlt_bool x x = false) by (intros x; destruct (Qlt_bool x x) eqn:H; auto; apply Qlt_bool_iff in H; lra).
  now rewrite !Q.
Qed.

Lemma dgeo_meta m m' : same_meta m m' -> dgeo W m -> dgeo W m'.
Proof. intros (_ & _ & _ & A & B & C & D & F) []. constructor; rewrite <- ?A, <- ?B, <- ?C, <- ?D, <- ?F; auto. Qed.

Lemma self_all ext over all ls m : dgeo W m -> reg_ok' m -> basics_exist m ->
  exists m', addDataFrom_self ext over all ls m = Ret true m' /\ reg_ok' m' /\ same_meta m m' /\
    (forall l, has_layer m' l <-> has_layer m l \/ (all = false /\ In l ls)) /\
    (forall l d, aget (data m) l = Some d -> aget (data m') l = Some d) /\
    (forall l i, ~ has_layer m l -> all = false -> In l ls -> in_range (size m) i -> value_at m' l i NO_INFORMATION) /\
    (exists ex, layers m' = layers m ++ ex).
Proof.
  intros G R B. set (ls' := if all then layers m else ls).
  destruct (add_missing_list ls' m R) as (m' & AM & R' & SM & HL & KD & NV & EX).
  assert (RUN : addDataFrom_self ext over all ls m = Ret true m').
  { unfold addDataFrom_self. fold ls'. unfold bind at 1.
    assert (X : (if ext then extendToInclude m else ret true) m = Ret true m).
    { destruct ext; [|reflexivity]. unfold extendToInclude. rewrite !same_axis. reflexivity. }
    rewrite X. unfold bind at 1. rewrite AM. unfold bind at 1. unfold bind at 1, lift.
    assert (G' : dgeo W m') by (eapply dgeo_meta; eauto).
    rewrite (map_visits_ok _ _ (d_start _ _ G')).
    assert (V : forall i, In i (visit_list (size m') (start m')) -> merge_cell_self over ls' i m' = Ret tt m').
    { intros i Hi. apply visit_list_In in Hi; [|apply G']. apply merge_self; auto.
      - apply R'.
      - intros b Hb. apply HL. left. apply B. destruct SM as (_ & _ & SB & _). now rewrite SB.
      - intros l Hl. apply HL. now right. }
    revert V. generalize (visit_list (size m') (start m')). induction l as [|i l IH]; intros V; [reflexivity|].
    cbn [mfor]. rewrite (V i (or_introl eq_refl)). apply IH. intros j Hj. apply V. now right. }
  exists m'. split; [exact RUN|]. split; [exact R'|]. split; [exact SM|].
  assert (LH : forall l, In l (layers m) -> has_layer m l).
  { intros l Hl. destruct (listed m l (proj1 R) Hl) as [HA _]. unfold amem in HA. destruct (aget (data m) l) as [d|] eqn:D; [now exists d|discriminate]. }
  split.
  { intros l. rewrite HL. unfold ls'. destruct all; split; intros [H|H]; auto; destruct H; auto; try discriminate. }
  split; [exact KD|]. split; [|exact EX]. intros l i NL Ha Hl Hi. apply NV; auto. unfold ls'. now rewrite Ha.
Qed.
End Self.

(** A map merged into itself, or extended to include itself, is unchanged, except that the
    layers asked for and missing are added, unknown everywhere. *)
Theorem C92_self : forall (E : Env), real_or_double E -> forall W m extend overwrite copyAll ls, W <= 2 ^ 44 -> dgeo W m -> reg_ok' m -> basics_exist m ->
  extendToInclude m m = Ret true m /\
  exists m', addDataFrom_self extend overwrite copyAll ls m = Ret true m' /\ reg_ok' m' /\ same_meta m m' /\
    (forall l, has_layer m' l <-> has_layer m l \/ (copyAll = false /\ In l ls)) /\
    (forall l i v, has_layer m l -> (value_at m' l i v <-> value_at m l i v)) /\
    (forall l i, has_layer m' l -> ~ has_layer m l -> in_range (size m) i -> value_at m' l i unknown).
Proof.
  intros E RD W m ext over all ls HW G R B. split.
  { unfold extendToInclude. rewrite !same_axis. reflexivity. }
  destruct (self_all (near_real E RD) W HW ext over all ls m G R B) as (m' & RUN & R' & SM & HL & KD & NV & _).
  exists m'. split; [exact RUN|]. split; [exact R'|]. split; [exact SM|]. split; [exact HL|]. split.
  - intros l i v [d D]. unfold value_at. rewrite D, (KD l d D). reflexivity.
  - intros l i H N I. apply HL in H. destruct H as [H|[Ha H]]; [contradiction|]. now apply NV.
Qed.
Print Assumptions C92_self.

(** In doubles: a moved map with a decimal resolution, and a layer it does not have. *)
Example C92_case : real_or_double (binary64 BWrap) /\ dgeo 11 decimal' /\ reg_ok' decimal' /\ basics_exist decimal' /\
  match addDataFrom_self (E := binary64 BWrap) true true false ["a"; "new"]%string decimal' with
  | Ret true m' => layers m' = layers decimal' ++ ["new"%string] /\ aget (data m') "a" = aget (data decimal') "a" /\ at_ m' "new" (3, 2) = Ok 255
  | _ => False
  end.
Proof.
  split; [right; eexists; reflexivity|]. split; [dgeo_vm|]. split; [apply reg_okb_ok; vm_compute; reflexivity|].
  split; [apply basics_existb_ok; vm_compute; reflexivity|]. vm_compute. auto.
Qed.

(** The bound on the distance from the origin is needed: 2^53 cells away the map overwrites
    its own cells with those of their neighbours. *)
Definition remote : cmap :=
  number_cells "a" 1 (after (setGeometry (E := binary64 BWrap) (8#1, 1#1)%Q 1 (inject_Z (2 ^ 53), 0)%Q) (new_map ["a"]%string)).
Theorem C92_far_refuted : exists m m', reg_ok' m /\ basics_exist m /\ setGeometry (E := binary64 BWrap) (len m) (resn m) (pos m) (new_map ["a"]%string) = Ret tt (after clearAll m) /\
  addDataFrom_self (E := binary64 BWrap) false true true [] m = Ret true m' /\ value_at m "a" (3, 0) 4 /\ value_at m' "a" (3, 0) 5.
Proof.
  exists remote, (after (addDataFrom_self (E := binary64 BWrap) false true true []) remote).
  split; [apply reg_okb_ok; vm_compute; reflexivity|]. split; [apply basics_existb_ok; vm_compute; reflexivity|].
  split; [vm_compute; reflexivity|]. split; [vm_compute; reflexivity|]. split; apply CoreProofs2.at_value; vm_compute; reflexivity.
Qed.
Print Assumptions C92_far_refuted.
