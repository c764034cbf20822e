(** CostMap::addDataFrom. *)
From Coq Require Import ZArith QArith Qround Qabs Qreduction Qfield String List Bool Lia Lqa.
From Coq Require Import ZifyBool.
From Verif Require Import Base Mat GridMapMath GridIter CostMap History BaseLemmas Spec GeoLemmas CoreProofs CoreProofs2 CoreFinal IterProofs MoveProofs.
Import ListNotations.
Open Scope Z_scope.

Section AddMissing.
Context {E : Env}.

Lemma has_dec m l : {has_layer m l} + {~ has_layer m l}.
Proof.
  unfold has_layer. destruct (aget (data m) l) as [d|]; [left; eauto|right; intros [d H]; discriminate].
Qed.

Lemma add_missing_list ls : forall m, reg_ok' m ->
  exists m', mfor ls add_missing m = Ret tt m' /\ reg_ok' m' /\ same_meta m m' /\
    (forall l, has_layer m' l <-> has_layer m l \/ In l ls) /\
    (forall l d, aget (data m) l = Some d -> aget (data m') l = Some d) /\
    (forall l i, ~ has_layer m l -> In l ls -> in_range (size m) i -> value_at m' l i NO_INFORMATION) /\
    (exists ex, layers m' = layers m ++ ex).
Proof.
  induction ls as [|l ls IH]; intros m R.
  - exists m. split; [reflexivity|]. split; auto. split; [apply same_meta_refl|]. split; [simpl; tauto|].
    split; auto. split; [simpl; tauto|]. exists []. now rewrite app_nil_r.
  - cbn [mfor]. unfold add_missing at 1.
    destruct (smem l (layers m)) eqn:Hs.
    + assert (has_layer m l) as Hl.
      { apply smem_In in Hs. apply exists_has. apply akeys_has; auto. apply R. }
      destruct (IH m R) as (m' & F & R' & M' & H1 & H2 & H3 & H4).
      exists m'. split; auto. split; auto. split; auto. split.
      { intros l'. rewrite H1. simpl. split; intros [?|?]; auto. destruct H; subst; auto. }
      split; auto. split; auto. intros l' i N [ -> |Hin] Hi; [tauto|auto].
    + destruct R as (R & Z0 & Z1).
      assert (~ has_layer m l) as Hl.
      { intros C. apply exists_has in C. apply akeys_has in C; auto. apply smem_In in C. congruence. }
      pose proof (pres_add_value l NO_INFORMATION m (conj R (conj Z0 Z1))) as RA.
      destruct (add_value_ok l NO_INFORMATION m Z0 Z1) as (m1 & A & V & O & M1 & L1 & X1).
      rewrite A in *. cbn [post] in RA.
      assert (Zs : size m1 = size m) by (destruct M1 as (_ & _ & _ & _ & _ & _ & -> & _); auto).
      destruct (IH m1 RA) as (m' & F & R' & M' & H1 & H2 & H3 & H4).
      exists m'. split; auto. split; auto. split; [eapply same_meta_trans; eauto|].
      assert (X1' : forall l', has_layer m1 l' <-> has_layer m l' \/ l' = l).
      { intros l'. rewrite <- !exists_has. apply X1. }
      split. { intros l'. rewrite H1, X1'. simpl. intuition auto. }
      split.
      { intros l' d Hd. apply H2. assert (l' <> l) as Ne.
        { intros ->. apply Hl. now exists d. }
        specialize (O l' Ne). unfold get in O. rewrite Hd in O. destruct (aget (data m1) l'); congruence. }
      split.
      { intros l' i N Hin Hi. destruct (String.string_dec l' l) as [ -> |Ne].
        - destruct (V i Hi) as (d & Hd & Hv). exists d. auto.
        - destruct Hin as [ -> |Hin]; [tauto|]. apply H3; auto. rewrite X1'. tauto. rewrite Zs; auto. }
      destruct H4 as [ex H4]. destruct (exists_layer m l) eqn:K; rewrite L1 in H4.
      * apply exists_has in K. tauto.
      * exists ([l] ++ ex). rewrite H4. now rewrite <- app_assoc.
Qed.

(** ** Maps without cells *)

Lemma map_visits_empty n : bpol = BClamp -> (fst n = 0 \/ snd n = 0) -> 0 <= fst n -> 0 <= snd n ->
  map_visits n (0, 0) = Ok [(0, 0)].
Proof.
  intros P Z0 N0 N1. unfold map_visits, map_iter_new. rewrite P. cbn [rbind]. unfold grid_fuel.
  replace (Z.to_nat (fst n * snd n)) with O by lia. cbn [run mi_past mi_index]. unfold map_iter_next.
  cbn [mi_index mi_size mi_start]. unfold increment_index, unwrap_index. rewrite (proj2 (idx_eqb_eq _ _)) by reflexivity.
  cbn [fst snd]. set (u := if 0 + 1 <? snd n then _ else _).
  assert (index_in_range u n = false) as ->.
  { unfold index_in_range, u. destruct (Z.ltb_spec (0 + 1) (snd n)); cbn [fst snd]; lia. }
  reflexivity.
Qed.

Lemma add_data_empty other ow ca ls m : reg_ok' m -> basics_exist m ->
  start m = (0, 0) -> (fst (size m) = 0 \/ snd (size m) = 0) ->
  exists f, addDataFrom other false ow ca ls m = Flt f.
Proof.
  intros R B S0 Z0. unfold addDataFrom. set (sel := if ca then layers other else ls).
  unfold bind at 1. cbn [ret]. unfold bind at 1.
  destruct (add_missing_list sel m R) as (m' & F & R' & M' & H1 & H2 & _). rewrite F.
  unfold bind at 1. destruct M' as (_ & _ & M3 & _ & _ & _ & M7 & M8).
  destruct R as (R & N0 & N1).
  destruct bpol eqn:P.
  - unfold bind at 1. rewrite <- M7, <- M8, S0. rewrite (map_visits_empty (size m)) by auto. cbn [lift mfor].
    assert (exists f, merge_cell other ow sel (0, 0) m' = Flt f) as [f Hf].
    { unfold merge_cell. unfold bind at 1. unfold isValid, isValid_layers.
      destruct (basic m') as [|b bs] eqn:Hb.
      - cbn [lift]. cbn [andb]. unfold getPosition, position_from_index.
        replace (index_in_range (0, 0) (size m')) with false; [eexists; reflexivity|].
        symmetry. rewrite <- M7. unfold index_in_range. cbn [fst snd]. lia.
      - cbn [isValid_loop]. unfold at_. 
        assert (has_layer m' b) as [d Hd].
        { apply H1. left. apply B. rewrite M3. now left. }
        rewrite Hd. destruct (r_mat _ (proj1 R') _ _ Hd) as (W & D1 & D2).
        unfold mget, in_mat. rewrite D1, D2, <- M7.
        replace (_ && _) with false by lia. cbn. eexists; reflexivity. }
    rewrite Hf. eexists; reflexivity.
  - unfold bind at 1. unfold map_visits, map_iter_new. rewrite P.
    rewrite <- M7. replace ((fst (size m) =? 0) || (snd (size m) =? 0)) with true by lia.
    eexists; reflexivity.
Qed.



(** ** Loops that write cells *)

(** [m'] differs from [m] only in cell values. *)
Definition cells (m m' : cmap) : Prop :=
  reg_ok' m' /\ same_meta m m' /\ layers m' = layers m /\ (forall l, exists_layer m' l = exists_layer m l).

Lemma cells_refl m : reg_ok' m -> cells m m.
Proof. intros R. split; auto. split; [apply same_meta_refl|]. auto. Qed.

Lemma cells_trans a b c : cells a b -> cells b c -> cells a c.
Proof.
  intros (A1 & A2 & A3 & A4) (B1 & B2 & B3 & B4). split; auto. split; [eapply same_meta_trans; eauto|].
  split; [congruence|]. intros l. now rewrite B4.
Qed.

Lemma cells_size m m' : cells m m' -> size m' = size m.
Proof. intros (_ & (_ & _ & _ & _ & _ & _ & -> & _) & _). reflexivity. Qed.

Lemma cells_has m m' l : cells m m' -> (has_layer m' l <-> has_layer m l).
Proof. intros (_ & _ & _ & H). rewrite <- !exists_has, H. tauto. Qed.

Lemma at_set_cells l i v m : reg_ok' m -> has_layer m l -> in_range (size m) i ->
  exists m', at_set l i v m = Ret tt m' /\ cells m m' /\
    (forall l' i', at_ m' l' i' = if (l' =? l)%string && idx_eqb i' i then Ok v else at_ m l' i').
Proof.
  intros R Hl Hi. pose proof (pres_at_set l i v m R) as P.
  destruct (at_set_ok l i v m (proj1 R) Hl Hi) as (m' & H & A & B & C & D & F). rewrite H in P. cbn in P.
  exists m'. split; auto. split; [unfold cells; auto|].
  intros l' i'. destruct (String.eqb_spec l' l) as [->|N]; cbn [andb].
  - destruct (idx_eqb i' i) eqn:K; [apply idx_eqb_eq in K; subst; auto|].
    apply B. right. intros ->. rewrite (proj2 (idx_eqb_eq _ _) eq_refl) in K. discriminate.
  - apply B; auto.
Qed.

Lemma write_cells (f : string -> option Z) i (body : string -> M cmap unit) : forall ls,
  (forall l m, In l ls -> body l m = match f l with None => Ret tt m | Some w => at_set l i w m end) ->
  forall m, reg_ok' m -> in_range (size m) i -> (forall l, In l ls -> has_layer m l) ->
  exists m', mfor ls body m = Ret tt m' /\ cells m m' /\
    (forall l' i', at_ m' l' i' =
       match (if idx_eqb i' i && smem l' ls then f l' else None) with Some w => Ok w | None => at_ m l' i' end).
Proof.
  induction ls as [|l ls IH]; intros HB m R Hi HL.
  - exists m. split; [reflexivity|]. split; [now apply cells_refl|]. intros l' i'. cbn [smem existsb].
    now rewrite andb_false_r.
  - cbn [mfor]. rewrite (HB l m) by now left.
    assert (exists m1, match f l with None => Ret tt m | Some w => at_set l i w m end = Ret tt m1 /\ cells m m1 /\
       forall l' i', at_ m1 l' i' = match (if (l' =? l)%string && idx_eqb i' i then f l else None) with Some w => Ok w | None => at_ m l' i' end)
      as (m1 & H1 & C1 & A1).
    { destruct (f l) as [w|].
      - destruct (at_set_cells l i w m R) as (m1 & H1 & C1 & A1); auto. { apply HL; now left. }
        exists m1. split; auto. split; auto. intros l' i'. rewrite A1. now destruct (_ && _).
      - exists m. split; auto. split; [now apply cells_refl|]. intros l' i'. now destruct (_ && _). }
    rewrite H1.
    destruct (IH ltac:(intros; apply HB; now right) m1) as (m2 & H2 & C2 & A2).
    { apply C1. } { rewrite (cells_size _ _ C1). auto. }
    { intros l' Hl'. apply (cells_has _ _ _ C1). apply HL. now right. }
    exists m2. split; auto. split; [eapply cells_trans; eauto|]. intros l' i'. rewrite A2, A1.
    unfold smem. cbn [existsb]. destruct (idx_eqb i' i); cbn [andb]; [|now rewrite andb_false_r].
    rewrite andb_true_r. destruct (String.eqb_spec l' l) as [->|N]; cbn [orb]; [|reflexivity].
    destruct (f l) eqn:K; destruct (existsb _ ls); rewrite ?K; auto.
Qed.

Lemma visit_cells (new : idx -> string -> res Z) (body : idx -> M cmap unit) m0 : reg_ok' m0 -> forall vs, NoDup vs ->
  (forall i m, In i vs -> cells m0 m -> (forall l, at_ m l i = at_ m0 l i) ->
     exists m', body i m = Ret tt m' /\ cells m0 m' /\
       forall l' i', at_ m' l' i' = if idx_eqb i' i then new i l' else at_ m l' i') ->
  exists m', mfor vs body m0 = Ret tt m' /\ cells m0 m' /\
    forall l i, at_ m' l i = if existsb (idx_eqb i) vs then new i l else at_ m0 l i.
Proof.
  intros R0 vs ND HB.
  assert (G : forall us m, NoDup us -> (forall i, In i us -> In i vs) -> cells m0 m ->
     (forall i l, In i us -> at_ m l i = at_ m0 l i) ->
     exists m', mfor us body m = Ret tt m' /\ cells m0 m' /\
       forall l i, at_ m' l i = if existsb (idx_eqb i) us then new i l else at_ m l i).
  { induction us as [|i us IH]; intros m NDu Sub C HA.
    - exists m. split; [reflexivity|]. split; auto.
    - inversion NDu as [|? ? Ni NDu']; subst. cbn [mfor].
      destruct (HB i m) as (m1 & H1 & C1 & A1); auto.
      { apply Sub; now left. } { intros l. apply HA. now left. }
      rewrite H1. destruct (IH m1) as (m2 & H2 & C2 & A2); auto.
      { intros j Hj. apply Sub. now right. }
      { intros j l Hj. rewrite A1. destruct (idx_eqb j i) eqn:K; [apply idx_eqb_eq in K; subst; tauto|].
        apply HA. now right. }
      exists m2. split; auto. split; auto. intros l j. rewrite A2, A1. cbn [existsb].
      destruct (idx_eqb j i) eqn:K; cbn [orb]; auto. apply idx_eqb_eq in K. subst j. destruct (existsb _ us); auto. }
  apply G; auto. now apply cells_refl.
Qed.



(** ** The merge *)

Lemma position_meta m m' i : same_meta m m' -> getPosition m' i = getPosition m i.
Proof.
  intros (_ & _ & _ & A & B & C & D & F). unfold getPosition. now rewrite A, B, C, D, F.
Qed.

Lemma centre_meta m m' i : same_meta m m' -> centre m' i = centre m i.
Proof.
  intros (_ & _ & _ & A & B & C & D & F). unfold centre, world_index. now rewrite A, B, C, D, F.
Qed.

Lemma veq_inside m p q : veq p q -> (inside m p <-> inside m q).
Proof. intros [A B]. unfold inside. now rewrite A, B. Qed.

Lemma veq_contains r c p q : veq p q -> (contains r c p <-> contains r c q).
Proof. intros [A B]. unfold contains, contains1. now rewrite A, B. Qed.

(** The value offered by [other] for a position. *)
Definition offer (other : cmap) (p : vec) (l : string) : option Z :=
  if isInside other p then
    match at_ other l (snd (getIndex other p)) with
    | Ok w => if w =? NO_INFORMATION then None else Some w
    | _ => None
    end
  else None.

Definition merged (m other : cmap) (ow : bool) (ls : list string) (i : idx) (l : string) : res Z :=
  match isValid m i, getPosition m i with
  | Ok v, Some p => 
      if v && negb ow then at_ m l i
      else match (if smem l ls then offer other p l else None) with Some w => Ok w | None => at_ m l i end
  | _, _ => Throw OutOfRange
  end.

Lemma isValid_same m m' i : basic m' = basic m -> (forall l, at_ m' l i = at_ m l i) -> isValid m' i = isValid m i.
Proof.
  intros B A. unfold isValid. rewrite B. unfold isValid_layers. destruct (basic m) as [|b bs]; auto.
  generalize (b :: bs). induction l; cbn [isValid_loop]; auto. rewrite A. destruct (at_ m a i); cbn [rbind]; auto.
  destruct (_ =? _); auto.
Qed.

Lemma isValid_cell m i : reg_ok m -> in_range (size m) i -> basics_exist m ->
  exists b, isValid m i = Ok b /\ (b = true <-> valid_cell m i).
Proof.
  intros R Hi B. destruct (isValid_layers_ok m i (basic m)) as (b & Hb & Hs).
  { intros l Hl. apply reg_value; auto. }
  exists b. split; auto.
Qed.

(** Every cell has a position, and where that is inside the other map, it is in a
    cell of it. *)
Definition meets (m other : cmap) : Prop := forall i, in_range (size m) i ->
  exists p, getPosition m i = Some p /\ (isInside other p = true -> in_range (size other) (snd (getIndex other p))).

Lemma merge_cells m other ow ls : in_range (size m) (start m) -> meets m other -> reg_ok' m -> basics_exist m -> reg_ok other ->
  (forall l, In l ls -> has_layer m l) -> (forall l, In l ls -> has_layer other l) ->
  exists m', bind (lift (map_visits (size m) (start m))) (fun vs => mfor vs (merge_cell other ow ls)) m = Ret tt m' /\
    cells m m' /\ forall l i, in_range (size m) i -> at_ m' l i = merged m other ow ls i l.
Proof.
  intros G MT R B Ro HL HO. unfold bind. rewrite map_visits_ok by apply G. cbn [lift].
  destruct (visit_cells (merged m other ow ls) (merge_cell other ow ls) m R (visit_list (size m) (start m)))
    as (m' & H & C & A).
  - apply visit_list_NoDup. apply G.
  - intros i mc Hi C SA. apply (visit_list_In _ _ _ G) in Hi.
    assert (M : same_meta m mc) by apply C.
    assert (Hb : basic mc = basic m) by (symmetry; apply M).
    destruct (isValid_cell m i (proj1 R) Hi B) as (b & Vb & _).
    destruct (MT i Hi) as (p & Hp & Ep).
    unfold merge_cell. unfold bind at 1. rewrite (isValid_same m mc i Hb SA), Vb. cbn [lift].
    unfold merged. rewrite Vb, Hp, (position_meta m mc i M), Hp.
    destruct (b && negb ow) eqn:K.
    { exists mc. split; [reflexivity|]. split; auto. intros l' i'. destruct (idx_eqb i' i) eqn:Ki; auto.
      apply idx_eqb_eq in Ki. subst. apply SA. }
    unfold offer. destruct (isInside other p) eqn:Ins; cbn [negb].
    2:{ exists mc. split; [reflexivity|]. split; auto. intros l' i'. destruct (idx_eqb i' i) eqn:Ki; auto.
        apply idx_eqb_eq in Ki. subst. rewrite SA. destruct (smem l' ls); auto. }
    set (j := snd (getIndex other p)).
    assert (Rj : in_range (size other) j) by now apply Ep.
    destruct (write_cells (fun l => match at_ other l j with Ok w => if w =? NO_INFORMATION then None else Some w | _ => None end)
      i (fun l => bind (lift (isValid_layer other j l)) (fun ok : bool => if negb ok then ret tt else bind (lift (at_ other l j)) (fun w => at_set l i w))) ls)
      with (m := mc) as (m1 & H1 & C1 & A1).
    + intros l m1 Hl. unfold bind. destruct (reg_value other l j Ro (HO l Hl) Rj) as [w Hw].
      apply CoreProofs2.at_value in Hw. unfold isValid_layer. rewrite Hw. cbn [rbind lift].
      destruct (w =? NO_INFORMATION); reflexivity.
    + apply C.
    + rewrite (cells_size _ _ C). auto.
    + intros l Hl. apply (cells_has _ _ _ C). auto.
    + exists m1. split; [exact H1|]. split; [eapply cells_trans; eauto|].
      intros l' i'. rewrite A1. destruct (idx_eqb i' i) eqn:Ki; cbn [andb]; auto.
      apply idx_eqb_eq in Ki. subst i'. now rewrite SA.
  - exists m'. split; auto. split; auto. intros l i Hi. rewrite A.
    replace (existsb (idx_eqb i) (visit_list (size m) (start m))) with true; auto.
    symmetry. apply existsb_exists. exists i. split; [|now apply idx_eqb_eq]. apply visit_list_In; auto.
Qed.

(** What a cell takes from the other map. *)
Definition picks (other m : cmap) (l : string) (i : idx) (w : Z) : Prop :=
  exists p, getPosition m i = Some p /\ offer other p l = Some w.

Lemma add_data_any m other ow ca ls : in_range (size m) (start m) -> meets m other -> reg_ok' m -> reg_ok other ->
  let sel := if ca : bool then layers other else ls in
  (forall l, In l sel -> has_layer other l) ->
  (forall b, In b (basic m) -> has_layer m b \/ In b sel) ->
  exists m', addDataFrom other false ow ca ls m = Ret true m' /\ reg_ok' m' /\ same_meta m m' /\
    (exists ex, layers m' = layers m ++ ex) /\
    (forall l, has_layer m' l <-> has_layer m l \/ In l sel) /\
    (forall l i v, has_layer m' l -> in_range (size m) i ->
       let takes w := In l sel /\ (ow = true \/ ~ valid_cell m i) /\ picks other m l i w in
       (value_at m' l i v <-> takes v \/ (~ (exists w, takes w) /\ value_or_unknown m l i v))).
Proof.
  intros G MT R Ro sel HO HB. unfold addDataFrom. fold sel.
  unfold bind at 1. cbn [ret]. unfold bind at 1.
  destruct (add_missing_list sel m R) as (m1 & F & R1 & M1 & H1 & H2 & H3 & H4). rewrite F.
  assert (Z1 : size m1 = size m) by (symmetry; apply M1).
  assert (S1 : start m1 = start m) by (symmetry; apply M1).
  assert (G1 : in_range (size m1) (start m1)) by now rewrite Z1, S1.
  assert (MT1 : meets m1 other).
  { intros i Hi. rewrite Z1 in Hi. rewrite (position_meta m m1 i M1). now apply MT. }
  assert (Bs : basic m1 = basic m) by (symmetry; apply M1).
  assert (B1 : basics_exist m1). { intros b Hb. rewrite Bs in Hb. apply H1. auto. }
  destruct (merge_cells m1 other ow sel G1 MT1 R1 B1 Ro) as (m' & Hm & C & A); auto.
  { intros l Hl. apply H1. auto. }
  unfold bind at 1. rewrite Hm. exists m'. split; [reflexivity|].
  split; [apply C|]. split; [eapply same_meta_trans; eauto; apply C|].
  split. { destruct H4 as [ex H4]. exists ex. rewrite <- H4. apply C. }
  split. { intros l. rewrite (cells_has _ _ _ C). apply H1. }
  intros l i v Hl Hi. cbn zeta. rewrite <- CoreProofs2.at_value. rewrite A by (rewrite Z1; auto).
  assert (Hi1 : in_range (size m1) i) by (rewrite Z1; auto).
  destruct (isValid_cell m1 i (proj1 R1) Hi1 B1) as (b & Vb & Vi).
  destruct (MT1 i Hi1) as (p & Hp & Ep). unfold merged. rewrite Vb, Hp. rewrite (position_meta m m1 i M1) in Hp.
  assert (Val : forall v, value_at m1 l i v <-> value_or_unknown m l i v).
  { intros w. unfold value_or_unknown. destruct (has_dec m l) as [[d Hd]|N].
    - specialize (H2 l d Hd). unfold value_at. rewrite H2, Hd. split; auto. intros [K|[K _]]; auto.
      exfalso. apply K. now exists d.
    - assert (value_at m1 l i unknown) as U.
      { apply H3; auto. apply (cells_has _ _ _ C) in Hl. apply H1 in Hl. tauto. }
      split. + intros K. right. split; auto. eapply value_fun; eauto.
      + intros [(d & K & _)|[_ ->]]; auto. exfalso. apply N. now exists d. }
  assert (VC : valid_cell m1 i <-> valid_cell m i).
  { unfold valid_cell. rewrite Bs. split; intros [K1 K2]; split; auto; intros c Hc; destruct (K2 c Hc) as (w & W1 & W2); exists w; split; auto.
    - destruct (has_dec m c) as [[d Hd]|N].
      + specialize (H2 c d Hd). unfold value_at in *. rewrite H2 in W1. now rewrite Hd.
      + exfalso. apply W2. eapply value_fun; [exact W1|]. apply H3; auto. destruct (HB c Hc); tauto.
    - destruct W1 as (d & W3 & W4). exists d. split; auto. }
  rewrite VC in Vi.
  assert (Off : forall w, offer other p l = Some w <-> picks other m l i w).
  { intros w. unfold picks. split; [eauto|]. intros (p' & P1 & P2). congruence. }
  assert (VC' : b && negb ow = true <-> ~ (ow = true \/ ~ valid_cell m i)).
  { rewrite andb_true_iff, negb_true_iff, <- Vi. destruct b, ow; intuition congruence. }
  destruct (b && negb ow) eqn:K.
  - rewrite CoreProofs2.at_value, Val. split; [intros H; right; split; auto; intros (w & _ & W & _); tauto|tauto].
  - assert (Hc : ow = true \/ ~ valid_cell m i) by (destruct b, ow; intuition congruence).
    destruct (smem l sel) eqn:Ks.
    + apply smem_In in Ks. destruct (offer other p l) as [w|] eqn:Ko.
      * split. -- injection 1 as ->. left. split; auto. split; auto. now apply Off.
        -- intros [(_ & _ & T)|[T _]]; [apply Off in T; congruence|]. exfalso. apply T. exists w.
           split; auto. split; auto. now apply Off.
      * rewrite CoreProofs2.at_value, Val. split.
        -- intros H. right. split; auto. intros (w & _ & _ & T). apply Off in T. discriminate.
        -- intros [(_ & _ & T)|[_ T]]; auto. apply Off in T. discriminate.
    + assert (~ In l sel) as Ks' by now apply smem_false. rewrite CoreProofs2.at_value, Val.
      split; [intros H; right; split; auto; intros (w & T & _); tauto|tauto].
Qed.

Context (X : Exact E).

Lemma offer_ok other m p i l w : geo_ok other -> reg_ok other -> veq p (centre m i) ->
  (offer other p l = Some w <-> offers other m l i w).
Proof.
  intros G R Hp. unfold offer, offers. split.
  - destruct (isInside other p) eqn:K; [|discriminate]. apply (isInside_iff X) in K.
    destruct (getIndex_contains X other p G K) as [Ri Ci].
    destruct (at_ other l _) as [v| |] eqn:A; try discriminate.
    destruct (Z.eqb_spec v NO_INFORMATION); [discriminate|]. injection 1 as ->. split; auto.
    apply at_value in A. destruct A as (d & A1 & A2). eexists _, d. split; [exact Ri|]. split; auto. split; auto.
    eapply veq_contains; [|exact Ci]. destruct Hp as [A B]. split; symmetry; auto.
  - intros [(j & d & Rj & D & V & C) N]. apply (veq_contains _ _ p) in C; auto.
    assert (inside other p) as I.
    { destruct C as [C0 C1]. destruct (g_len _ G) as [L0 L1]. cbn [fst snd] in L0, L1. pose proof (g_res _ G) as Hr.
      assert (in_range (size other) (world_index other j)) as [W0 W1].
      { destruct (g_size _ G). unfold world_index, in_range. cbn [fst snd]. split; apply Z.mod_pos_bound; lia. }
      destruct (contains1_inside _ _ _ _ _ _ Hr L0 W0 C0). destruct (contains1_inside _ _ _ _ _ _ Hr L1 W1 C1).
      unfold inside. auto. }
    rewrite (proj2 (isInside_iff X _ _) I). destruct (getIndex_contains X other p G I) as [Ri Ci].
    rewrite (covering_unique other _ j p G Ri Rj Ci C).
    rewrite (proj2 (CoreProofs2.at_value other l j w)) by (exists d; auto).
    destruct (Z.eqb_spec w NO_INFORMATION); [contradiction|reflexivity].
Qed.

Lemma add_data_final m other ow ca ls : geo_ok m -> reg_ok' m -> geo_ok other -> reg_ok other ->
  let sel := if ca : bool then layers other else ls in
  (forall l, In l sel -> has_layer other l) ->
  (forall b, In b (basic m) -> has_layer m b \/ In b sel) ->
  exists m', addDataFrom other false ow ca ls m = Ret true m' /\ reg_ok' m' /\ same_meta m m' /\
    (exists ex, layers m' = layers m ++ ex) /\
    (forall l, has_layer m' l <-> has_layer m l \/ In l sel) /\
    (forall l i v, has_layer m' l -> in_range (size m) i ->
       let takes w := In l sel /\ (ow = true \/ ~ valid_cell m i) /\ offers other m l i w in
       (value_at m' l i v <-> takes v \/ (~ (exists w, takes w) /\ value_or_unknown m l i v))).
Proof.
  intros G R Go Ro sel HO HB.
  assert (MT : meets m other).
  { intros i Hi. destruct (getPosition_centre X m i G Hi) as (p & Hp & _). exists p. split; auto.
    intros K. apply (getIndex_contains X other p Go). now apply (isInside_iff X). }
  destruct (add_data_any m other ow ca ls (g_start _ G) MT R Ro HO HB) as (m' & K1 & K2 & K3 & K4 & K5 & K6).
  exists m'. split; [exact K1|]. split; [exact K2|]. split; [exact K3|]. split; [exact K4|]. split; [exact K5|].
  intros l i v Hl Hi. cbn zeta.
  assert (Off : forall w, picks other m l i w <-> offers other m l i w).
  { intros w. destruct (getPosition_centre X m i G Hi) as (p & Hp & Ep). rewrite <- (offer_ok other m p i l w Go Ro Ep).
    unfold picks. rewrite Hp. split; [intros (p' & P1 & P2); congruence|eauto]. }
  specialize (K6 l i v Hl Hi). cbn zeta in K6. fold sel in K6. rewrite K6, Off. split; intros [K|[K K']]; auto; right; split; auto.
  - intros (w & T1 & T2 & T3). apply K. exists w. split; auto. split; auto. now apply Off.
  - intros (w & T1 & T2 & T3). apply K. exists w. split; auto. split; auto. now apply Off.
Qed.


End AddMissing.

Section NoBasic.
Context {E : Env}.

(** ** Without basic layers the overwrite flag is ignored *)

Let nb (m : cmap) : Prop := basic m = [].

Lemma nb_at_set l i v : pres nb (at_set l i v).
Proof.
  intros m H. unfold at_set. destruct (aget (data m) l); [|exact H]. destruct (mset _ _ _ _); simpl; auto.
Qed.

Lemma nb_merge o w ls i : pres nb (merge_cell o w ls i).
Proof.
  intros m Hm. unfold merge_cell. apply post_bind; auto using pres_lift. intros v s Hs. revert s Hs.
  match goal with |- forall s, _ -> post _ (?f s) => change (pres nb f) end.
  apply pres_if; [apply pres_ret|].
  destruct (getPosition m i); [|apply pres_abort]. apply pres_if; [apply pres_ret|].
  apply pres_mfor. intros l. apply pres_bind; [apply pres_lift|]. intros ok.
  apply pres_if; [apply pres_ret|]. apply pres_bind; [apply pres_lift|]. intros; apply nb_at_set.
Qed.

Lemma nb_copy old i : pres nb (copy_from old i).
Proof.
  intros m Hm. unfold copy_from. apply post_bind; auto using pres_lift. intros [|] s Hs; [exact Hs|]. revert s Hs.
  match goal with |- forall s, _ -> post _ (?f s) => change (pres nb f) end.
  destruct (getPosition m i); [|apply pres_abort]. apply pres_if; [apply pres_ret|].
  apply pres_mfor. intros l. apply pres_bind; [apply pres_lift|]. intros; apply nb_at_set.
Qed.

Lemma nb_extend o : pres nb (extendToInclude o).
Proof.
  intros m Hm. unfold extendToInclude.
  destruct (extend_axis _ _ _ _) as [[cx Lx] bx]. destruct (extend_axis (snd (pos m)) _ _ _) as [[cy Ly] by_].
  destruct (negb _); auto.
  apply post_bind; auto.
  { intros s Hs. unfold setGeometry. destruct (negb _); simpl; auto. }
  intros _ s Hs. apply post_bind; auto.
  { apply pres_modify; intros; auto. }
  intros _ s1 Hs1. apply post_bind; auto.
  intros s2 Hs2. apply post_bind; auto using pres_lift. intros. apply pres_mfor; auto.
  intros; apply nb_copy.
Qed.

Lemma nb_missing l : pres nb (add_missing l).
Proof.
  intros m Hm. unfold add_missing, add_value, add. destruct (smem l (layers m)); auto.
  destruct (negb _); simpl; auto. destruct (exists_layer m l); simpl; auto.
Qed.

Lemma merge_nb o ls i m : nb m -> merge_cell o false ls i m = merge_cell o true ls i m.
Proof. intros H. unfold merge_cell, bind, isValid. rewrite H. reflexivity. Qed.

Lemma add_data_no_basic o e ca ls m : basic m = [] ->
  addDataFrom o e false ca ls m = addDataFrom o e true ca ls m.
Proof.
  intros H. unfold addDataFrom. set (sel := if ca then layers o else ls).
  assert (P1 : pres nb (if e then extendToInclude o else ret true)).
  { destruct e; [apply nb_extend|apply pres_ret]. }
  unfold bind at 1 5. specialize (P1 m H). destruct ((if e then extendToInclude o else ret true) m) as [b m1| |]; auto.
  cbn [post] in P1. unfold bind at 1 4.
  assert (P2 : pres nb (mfor sel add_missing)) by (apply pres_mfor; intros; apply nb_missing).
  specialize (P2 m1 P1). destruct (mfor sel add_missing m1) as [u m2| |]; auto. cbn [post] in P2.
  unfold bind at 1 3. unfold bind at 1 2. destruct (lift (map_visits (size m2) (start m2)) m2) as [vs m3| |] eqn:K; auto.
  assert (P3 : nb m3). { pose proof (pres_lift nb (map_visits (size m2) (start m2)) m2 P2) as Q. rewrite K in Q. exact Q. }
  assert (K2 : mfor vs (merge_cell o false sel) m3 = mfor vs (merge_cell o true sel) m3).
  { clear K. revert m3 P3. induction vs as [|i vs IH]; intros m3 P3; auto. cbn [mfor]. rewrite merge_nb by auto.
    pose proof (nb_merge o true sel i m3 P3) as Q. destruct (merge_cell o true sel i m3); auto. }
  now rewrite K2.
Qed.

End NoBasic.
