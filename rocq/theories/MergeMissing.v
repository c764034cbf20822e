(** CostMap::addDataFrom with a selected layer that the other map lacks. *)
From Coq Require Import ZArith QArith String List Bool Lia.
From Verif Require Import Base Mat GridMapMath GridIter CostMap History BaseLemmas Spec GeoLemmas CoreProofs CoreProofs2 CoreFinal IterProofs MoveProofs AddDataProofs.
Import ListNotations.
Open Scope Z_scope.

Section Missing.
Context {E : Env}.

(** The cell passes the tests before the loop over the layers. *)
Definition asks (m other : cmap) (ow : bool) (i : idx) : bool :=
  match isValid m i, getPosition m i with
  | Ok v, Some p => negb (v && negb ow) && isInside other p
  | _, _ => false
  end.

Lemma first_split {A} (f : A -> bool) vs :
  (forall x, In x vs -> f x = false) \/
  exists us k ws, vs = us ++ k :: ws /\ f k = true /\ forall x, In x us -> f x = false.
Proof.
  induction vs as [|x vs IH]; [left; intros ? []|].
  destruct (f x) eqn:K; [right; exists [], x, vs; simpl; tauto|].
  destruct IH as [IH|(us & k & ws & -> & Fk & Fu)].
  - left. intros y [<-|Hy]; auto.
  - right. exists (x :: us), k, ws. split; [reflexivity|]. split; auto. intros y [<-|Hy]; auto.
Qed.

Lemma skip_cells m other ow ls : reg_ok m -> basics_exist m -> meets m other -> forall us,
  (forall i, In i us -> in_range (size m) i /\ asks m other ow i = false) -> mfor us (merge_cell other ow ls) m = Ret tt m.
Proof.
  intros R B MT. induction us as [|i us IH]; intros H; auto. cbn [mfor]. destruct (H i (or_introl eq_refl)) as [Hi A].
  replace (merge_cell other ow ls i m) with (Ret tt m : out cmap unit); [apply IH; intros; apply H; now right|].
  destruct (isValid_cell m i R Hi B) as (b & Vb & _). destruct (MT i Hi) as (p & Hp & _).
  unfold asks in A. rewrite Vb, Hp in A. unfold merge_cell, bind. rewrite Vb. cbn [lift]. rewrite Hp.
  destruct (b && negb ow); auto. cbn [negb andb] in A. now rewrite A.
Qed.

Lemma merge_missing_any m other ow pre x post : in_range (size m) (start m) -> meets m other -> reg_ok' m -> reg_ok other ->
  let sel := pre ++ x :: post in
  (forall l, In l pre -> has_layer other l) -> ~ has_layer other x ->
  (forall b, In b (basic m) -> has_layer m b \/ In b sel) ->
  exists m1, reg_ok' m1 /\ same_meta m m1 /\
    (forall l, has_layer m1 l <-> has_layer m l \/ In l sel) /\ (exists ex, layers m1 = layers m ++ ex) /\
    (forall l i v, has_layer m1 l -> in_range (size m) i -> (value_at m1 l i v <-> value_or_unknown m l i v)) /\
    (forall i, in_range (size m) i -> (valid_cell m1 i <-> valid_cell m i)) /\
    ((forall i, in_range (size m) i -> asks m1 other ow i = false) /\ addDataFrom other false ow false sel m = Ret true m1 \/
     exists k m', in_range (size m) k /\ asks m1 other ow k = true /\
       (forall i, in_range (size m) i -> asks m1 other ow i = true ->
          fst (world_index m k) * snd (size m) + snd (world_index m k) <= fst (world_index m i) * snd (size m) + snd (world_index m i)) /\
       addDataFrom other false ow false sel m = Exn OutOfRange m' /\ cells m1 m' /\
       forall l i v, has_layer m' l -> in_range (size m) i ->
         let takes w := i = k /\ In l pre /\ picks other m l k w in
         (value_at m' l i v <-> takes v \/ (~ (exists w, takes w) /\ value_or_unknown m l i v))).
Proof.
  intros G MT R Ro sel HP HX HB.
  destruct (add_missing_list sel m R) as (m1 & F & R1 & M1 & H1 & H2 & H3 & H4).
  assert (Z1 : size m1 = size m) by (symmetry; apply M1).
  assert (S1 : start m1 = start m) by (symmetry; apply M1).
  assert (G1 : in_range (size m1) (start m1)) by now rewrite Z1, S1.
  assert (MT1 : meets m1 other).
  { intros i Hi. rewrite Z1 in Hi. rewrite (position_meta m m1 i M1). now apply MT. }
  assert (Bs : basic m1 = basic m) by (symmetry; apply M1).
  assert (B1 : basics_exist m1). { intros b Hb. rewrite Bs in Hb. apply H1. auto. }
  assert (Val : forall l i v, has_layer m1 l -> in_range (size m) i -> (value_at m1 l i v <-> value_or_unknown m l i v)).
  { intros l i w Hl Hi. unfold value_or_unknown. destruct (has_dec m l) as [[d Hd]|N].
    - specialize (H2 l d Hd). unfold value_at. rewrite H2, Hd. split; auto. intros [K|[K _]]; auto.
      exfalso. apply K. now exists d.
    - assert (value_at m1 l i unknown) as U.
      { apply H3; auto. apply H1 in Hl. tauto. }
      split. + intros K. right. split; auto. eapply value_fun; eauto.
      + intros [(d & K & _)|[_ ->]]; auto. exfalso. apply N. now exists d. }
  exists m1. split; auto. split; auto. split; auto. split; auto. split; auto. split.
  { intros i Hi. unfold valid_cell. rewrite Bs. split; intros [K1 K2]; split; auto; intros c Hc; destruct (K2 c Hc) as (w & W1 & W2); exists w; split; auto.
    - apply Val in W1; auto. 2:{ apply H1. auto. } destruct W1 as [W1|[_ W1]]; auto. contradiction.
    - apply Val; auto; [apply H1; auto|]. now left. }
  assert (RUN : addDataFrom other false ow false sel m =
    match mfor (visit_list (size m1) (start m1)) (merge_cell other ow sel) m1 with
    | Ret _ s => Ret true s | Exn e s => Exn e s | Flt f => Flt f end).
  { unfold addDataFrom. unfold bind at 1. cbn [ret]. unfold bind at 1. rewrite F. unfold bind at 1. unfold bind at 1.
    rewrite map_visits_ok by auto. cbn [lift]. destruct (mfor _ _ m1); reflexivity. }
  destruct (first_split (asks m1 other ow) (visit_list (size m1) (start m1))) as [N|(us & k & ws & VS & Ak & Nu)].
  - left. split; [intros i Hi; apply N, visit_list_In; auto; now rewrite Z1|].
    rewrite RUN, (skip_cells m1 other ow sel (proj1 R1) B1 MT1); auto.
    intros i Hi. split; [now apply (visit_list_In _ (start m1))|auto].
  - right. assert (Rk : in_range (size m1) k).
    { apply (visit_list_In _ (start m1)); auto. rewrite VS. apply in_app_iff. right. now left. }
    assert (NO : forall i, in_range (size m) i -> exists a, nth_error (visit_list (size m1) (start m1)) a = Some i /\
       fst (world_index m i) * snd (size m) + snd (world_index m i) = Z.of_nat a).
    { intros i Hi. rewrite <- Z1 in Hi. apply (visit_list_In _ (start m1)) in Hi; auto. apply In_nth_error in Hi as [a Ha].
      exists a. split; auto. apply visit_list_nth in Ha; auto. rewrite Z1, S1 in Ha. exact Ha. }
    destruct (isValid_cell m1 k (proj1 R1) Rk B1) as (b & Vb & _). destruct (MT1 k Rk) as (p & Hp & Ep).
    assert (A := Ak). unfold asks in A. rewrite Vb, Hp in A. apply andb_true_iff in A as [A1 A2]. apply negb_true_iff in A1.
    set (j := snd (getIndex other p)). assert (Rj : in_range (size other) j) by now apply Ep.
    destruct (write_cells (fun l => match at_ other l j with Ok w => if w =? NO_INFORMATION then None else Some w | _ => None end)
      k (fun l => bind (lift (isValid_layer other j l)) (fun ok : bool => if negb ok then ret tt else bind (lift (at_ other l j)) (fun w => at_set l k w))) pre)
      with (m := m1) as (m' & Hm & C & A3).
    { intros l s Hl. unfold bind. destruct (reg_value other l j Ro (HP l Hl) Rj) as [w Hw].
      apply CoreProofs2.at_value in Hw. unfold isValid_layer. rewrite Hw. cbn [rbind lift].
      destruct (w =? NO_INFORMATION); reflexivity. }
    { exact R1. } { exact Rk. } { intros l Hl. apply H1. right. apply in_app_iff. now left. }
    exists k, m'. split; [now rewrite <- Z1|]. split; auto. split.
    { intros i Hi Ai. assert (Hk : in_range (size m) k) by now rewrite <- Z1.
      destruct (NO i Hi) as (a & Ha & ->). destruct (NO k Hk) as (c & Hc & ->).
      assert (c = length us) as ->.
      { eapply (proj1 (NoDup_nth_error (visit_list (size m1) (start m1))) (visit_list_NoDup _ _ G1) c (length us)).
        - apply nth_error_Some. congruence.
        - rewrite Hc, VS, nth_error_app2, Nat.sub_diag by lia. reflexivity. }
      destruct (Nat.lt_ge_cases a (length us)) as [L|L]; [|lia].
      rewrite VS, nth_error_app1 in Ha by auto. apply nth_error_In in Ha. rewrite Nu in Ai by auto. discriminate. }
    split.
    { rewrite RUN, VS, mfor_app, (skip_cells m1 other ow sel (proj1 R1) B1 MT1 us).
      2:{ intros i Hi. split; auto. apply (visit_list_In _ (start m1)); auto. rewrite VS. apply in_app_iff. now left. }
      cbn [mfor]. unfold merge_cell, bind at 1. rewrite Vb. cbn [lift]. rewrite A1, Hp, A2. cbn [negb]. fold j.
      unfold sel. rewrite mfor_app, Hm. cbn [mfor]. unfold bind at 1. unfold isValid_layer, at_.
      destruct (aget (data other) x) as [d|] eqn:K; [exfalso; apply HX; now exists d|]. reflexivity. }
    split; auto. intros l i v Hl Hi. cbn zeta. rewrite <- CoreProofs2.at_value, A3.
    assert (Hl1 : has_layer m1 l) by now apply (cells_has _ _ _ C).
    assert (PK : forall w, picks other m l k w <-> match at_ other l j with Ok w => if w =? NO_INFORMATION then None else Some w | _ => None end = Some w).
    { intros w. unfold picks, offer. rewrite (position_meta m m1 k M1) in Hp. split.
      - intros (p' & P1 & P2). rewrite Hp in P1. injection P1 as <-. now rewrite A2 in P2.
      - intros Q. exists p. split; auto. now rewrite A2. }
    destruct (idx_eqb i k) eqn:Ki; cbn [andb].
    + apply idx_eqb_eq in Ki. subst i. destruct (smem l pre) eqn:Sm.
      * apply smem_In in Sm. destruct (match at_ other l j with Ok w => if w =? NO_INFORMATION then None else Some w | _ => None end) as [w|] eqn:Q.
        -- split; [injection 1 as <-; left; split; auto; split; auto; now apply PK|].
           intros [(_ & _ & T)|[T _]]; [apply PK in T; congruence|]. exfalso. apply T. exists w. split; auto. split; auto. now apply PK.
        -- rewrite CoreProofs2.at_value, Val by auto. split; [intros V; right; split; auto; intros (w & _ & _ & T); apply PK in T; discriminate|].
           intros [(_ & _ & T)|[_ T]]; auto. apply PK in T. discriminate.
      * apply smem_false in Sm. rewrite CoreProofs2.at_value, Val by auto. split; [intros V; right; split; auto; intros (w & _ & T & _); tauto|tauto].
    + assert (i <> k). { intros ->. rewrite (proj2 (idx_eqb_eq _ _) eq_refl) in Ki. discriminate. }
      rewrite CoreProofs2.at_value, Val by auto. split; [intros V; right; split; auto; intros (w & T & _); tauto|tauto].
Qed.

Context (X : Exact E).

Lemma merge_missing_final m other ow pre x post : geo_ok m -> reg_ok' m -> geo_ok other -> reg_ok other ->
  let sel := pre ++ x :: post in
  (forall l, In l pre -> has_layer other l) -> ~ has_layer other x ->
  (forall b, In b (basic m) -> has_layer m b \/ In b sel) ->
  let asked i := in_range (size m) i /\ (ow = true \/ ~ valid_cell m i) /\ inside other (centre m i) in
  let place i := fst (world_index m i) * snd (size m) + snd (world_index m i) in
  exists m', reg_ok' m' /\ same_meta m m' /\ (exists ex, layers m' = layers m ++ ex) /\
    (forall l, has_layer m' l <-> has_layer m l \/ In l sel) /\
    (((forall i, ~ asked i) /\ addDataFrom other false ow false sel m = Ret true m' /\
      forall l i v, has_layer m' l -> in_range (size m) i -> (value_at m' l i v <-> value_or_unknown m l i v)) \/
     exists k, asked k /\ (forall i, asked i -> place k <= place i) /\
       addDataFrom other false ow false sel m = Exn OutOfRange m' /\
       forall l i v, has_layer m' l -> in_range (size m) i ->
         let takes w := i = k /\ In l pre /\ offers other m l k w in
         (value_at m' l i v <-> takes v \/ (~ (exists w, takes w) /\ value_or_unknown m l i v))).
Proof.
  intros G R Go Ro sel HP HX HB asked place.
  assert (MT : meets m other).
  { intros i Hi. destruct (getPosition_centre X m i G Hi) as (p & Hp & _). exists p. split; auto.
    intros K. apply (getIndex_contains X other p Go). now apply (isInside_iff X). }
  destruct (merge_missing_any m other ow pre x post (g_start _ G) MT R Ro HP HX HB) as (m1 & R1 & M1 & H1 & H4 & Val & VC & D).
  assert (Z1 : size m1 = size m) by (symmetry; apply M1).
  assert (B1 : basics_exist m1). { intros b Hb. apply H1. apply HB. replace (basic m) with (basic m1); auto. symmetry. apply M1. }
  assert (AS : forall i, in_range (size m) i -> (asks m1 other ow i = true <-> asked i)).
  { intros i Hi. unfold asks, asked. assert (Hi1 : in_range (size m1) i) by now rewrite Z1.
    destruct (isValid_cell m1 i (proj1 R1) Hi1 B1) as (b & -> & Vb). rewrite (VC i Hi) in Vb. rewrite (position_meta m m1 i M1).
    destruct (getPosition_centre X m i G Hi) as (p & -> & Ep).
    rewrite andb_true_iff, (isInside_iff X), (veq_inside other _ _ Ep), negb_true_iff, andb_false_iff, negb_false_iff.
    rewrite <- Vb. destruct b; intuition congruence. }
  destruct D as [[N RUN]|(k & m' & Hk & Ak & Mk & RUN & C & V)].
  - exists m1. split; auto. split; auto. split; auto. split; auto. left. split; auto.
    intros i Hi. pose proof Hi as [Hr _]. apply AS in Hi; auto. rewrite N in Hi by auto. discriminate.
  - exists m'. split; [apply C|]. split; [eapply same_meta_trans; eauto; apply C|].
    split. { destruct H4 as [ex H4]. exists ex. rewrite <- H4. apply C. }
    split. { intros l. rewrite (cells_has _ _ _ C). apply H1. }
    right. exists k. split; [now apply AS|]. split; [intros i Hi; apply Mk; [apply Hi|apply AS; auto; apply Hi]|].
    split; auto. intros l i v Hl Hi. cbn zeta.
    assert (Off : forall w, picks other m l k w <-> offers other m l k w).
    { intros w. destruct (getPosition_centre X m k G Hk) as (p & Hp & Ep). rewrite <- (offer_ok X other m p k l w Go Ro Ep).
      unfold picks. rewrite Hp. split; [intros (p' & P1 & P2); congruence|eauto]. }
    specialize (V l i v Hl Hi). cbn zeta in V. rewrite V, Off. split; intros [K|[K K']]; auto; right; split; auto.
    + intros (w & T1 & T2 & T3). apply K. exists w. split; auto. split; auto. now apply Off.
    + intros (w & T1 & T2 & T3). apply K. exists w. split; auto. split; auto. now apply Off.
Qed.

End Missing.
