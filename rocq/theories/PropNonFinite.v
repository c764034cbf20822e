(** Property C95: positions, sizes and radii that are infinite or NaN. *)
From Coq Require Import ZArith QArith Qround Qabs String List Bool Lia Lqa.
From Verif Require Import Base BaseLemmas Mat GridMapMath GridIter CostMap Iterators Inflation NonFinite Spec CoreProofs CoreProofs2 CoreFinal
  GeoLemmas FloatLemmas FloatMono IterProofs AddDataProofs DoubleSpec DoubleGeo DoubleMap IntModel IntProofs MoveProofs Samples PropDouble PropAlias.
Import ListNotations.
Open Scope Z_scope.

Definition finite (a : num) : Prop := exists q, a = Fin q.
Definition finite2 (p : pair2) : Prop := finite (fst p) /\ finite (snd p).
(** The length and the resolution are finite; the position may be anything. *)
Definition sized (X : xmap) : Prop := finite2 (xlen X) /\ finite (xres X).

Lemma finite_dec a : {finite a} + {~ finite a}.
Proof. destruct a; [left; eexists; reflexivity|right..]; intros [q H]; discriminate. Qed.
Lemma finite2_no p : ~ finite2 p -> ~ finite (fst p) \/ ~ finite (snd p).
Proof. intros H. destruct (finite_dec (fst p)); [|auto]. destruct (finite_dec (snd p)); [|auto]. exfalso. apply H. split; auto. Qed.

Section Lemmas.
Context {E : Env} (top : Q).
Notation nadd := (nadd top). Notation nsub := (nsub top). Notation nmul := (nmul top). Notation ndiv := (ndiv top).

Lemma nadd_l a b : ~ finite a -> ~ finite (nadd a b).
Proof.
  intros H [q K]. destruct a as [x|s|], b as [y|t|]; cbn in K; try discriminate; try (apply H; eexists; reflexivity).
  destruct (Bool.eqb s t); discriminate.
Qed.
Lemma nadd_r a b : ~ finite b -> ~ finite (nadd a b).
Proof.
  intros H [q K]. destruct a as [x|s|], b as [y|t|]; cbn in K; try discriminate; try (apply H; eexists; reflexivity).
  destruct (Bool.eqb s t); discriminate.
Qed.
Lemma nneg_no a : ~ finite a -> ~ finite (nneg a).
Proof. intros H [q K]. destruct a; cbn in K; try discriminate. apply H. eexists; reflexivity. Qed.
Lemma nsub_l a b : ~ finite a -> ~ finite (nsub a b).
Proof. apply nadd_l. Qed.
Lemma nsub_r a b : ~ finite b -> ~ finite (nsub a b).
Proof. intros H. apply nadd_r. now apply nneg_no. Qed.
Lemma ndiv_l a r : ~ finite a -> finite r -> ~ finite (ndiv a r).
Proof. intros H [x ->] [q K]. destruct a; cbn in K; try discriminate. apply H. eexists; reflexivity. Qed.

Lemma within_no p L c : finite L -> ~ finite p \/ ~ finite c -> xwithin1 top p L c = false.
Proof.
  intros [l ->] H. unfold xwithin1.
  assert (T : ~ finite (nneg (nsub (nsub p c) (nmul half (Fin l))))).
  { apply nneg_no, nsub_l. destruct H; [now apply nsub_l|now apply nsub_r]. }
  destruct (nneg _) as [q|s|]; [exfalso; apply T; eexists; reflexivity| |reflexivity]. destruct s; reflexivity.
Qed.

Lemma inside_no X p : finite2 (xlen X) -> ~ finite2 p \/ ~ finite2 (xpos X) -> xisInside top X p = false.
Proof.
  intros [L0 L1] H. unfold xisInside.
  assert (D : (~ finite (fst p) \/ ~ finite (fst (xpos X))) \/ (~ finite (snd p) \/ ~ finite (snd (xpos X)))).
  { destruct H as [H|H]; apply finite2_no in H; tauto. }
  destruct D as [D|D]; [rewrite (within_no _ _ _ L0 D); reflexivity|rewrite (within_no _ _ _ L1 D); apply andb_false_r].
Qed.

Lemma strict_no a : ~ finite a -> strict_int a = Fault BadCast.
Proof. intros H. destruct a; [exfalso; apply H; eexists; reflexivity|reflexivity..]. Qed.
Lemma strict_cases a : (exists k, strict_int a = Ok k) \/ strict_int a = Fault BadCast.
Proof. destruct a as [q| |]; cbn; auto. destruct (_ && _); eauto. Qed.

Lemma raw_no p L c r : finite r -> ~ finite p \/ ~ finite c -> xraw1 top strict_int p L c r = Fault BadCast.
Proof.
  intros R H. unfold xraw1. rewrite strict_no; [reflexivity|]. apply ndiv_l; [|exact R].
  destruct H as [H|H]; [now apply nsub_l, nsub_l|now apply nsub_r].
Qed.
Lemma raw_cases p L c r : (exists k, xraw1 top strict_int p L c r = Ok k) \/ xraw1 top strict_int p L c r = Fault BadCast.
Proof. unfold xraw1. destruct (strict_cases (ndiv (nsub (nsub p (nmul half L)) c) r)) as [[k ->]| ->]; cbn; eauto. Qed.

Lemma index_no X p : finite (xres X) -> ~ finite2 p \/ ~ finite2 (xpos X) -> xgetIndex top strict_int X p = Fault BadCast.
Proof.
  intros R H. unfold xgetIndex.
  assert (D : (~ finite (fst p) \/ ~ finite (fst (xpos X))) \/ (~ finite (snd p) \/ ~ finite (snd (xpos X)))).
  { destruct H as [H|H]; apply finite2_no in H; tauto. }
  destruct (raw_cases (fst p) (fst (xlen X)) (fst (xpos X)) (xres X)) as [[k K]|K]; rewrite K; cbn [rbind]; [|reflexivity].
  destruct D as [D|D]; [|now rewrite raw_no].
  rewrite raw_no in K by assumption. discriminate.
Qed.

Lemma shift_no d r : finite r -> ~ finite d -> xshift1 top strict_int d r = Fault BadCast.
Proof. intros R H. unfold xshift1. rewrite strict_no; [reflexivity|]. now apply nadd_l, ndiv_l. Qed.
Lemma shift_cases d r : (exists k, xshift1 top strict_int d r = Ok k) \/ xshift1 top strict_int d r = Fault BadCast.
Proof. unfold xshift1. cbv zeta. destruct (strict_cases (nadd (ndiv d r) (if nlt (Fin 0) (ndiv d r) then half else nneg half))) as [[k ->]| ->]; cbn; eauto. Qed.

Lemma move_no X p : finite (xres X) -> ~ finite2 p \/ ~ finite2 (xpos X) -> xmove top strict_int p X = Flt BadCast.
Proof.
  intros R H. unfold xmove.
  assert (D : ~ finite (nsub (fst p) (fst (xpos X))) \/ ~ finite (nsub (snd p) (snd (xpos X)))).
  { destruct H as [H|H]; apply finite2_no in H; destruct H; [left|right|left|right]; first [now apply nsub_l|now apply nsub_r]. }
  destruct (shift_cases (nsub (fst p) (fst (xpos X))) (xres X)) as [[k K]|K]; rewrite K; [|reflexivity].
  destruct D as [D|D]; [|now rewrite shift_no]. rewrite shift_no in K by assumption. discriminate.
Qed.
End Lemmas.

(** C95. A position with an infinite or NaN coordinate is outside every map, and every
    position is outside a map at such a position. getIndex, atPosition and move are
    nevertheless undefined then: they convert to int before, or without, that check. *)
Theorem C95_outside : forall (E : Env) top X p, sized X -> ~ finite2 p \/ ~ finite2 (xpos X) ->
  xisInside top X p = false /\
  xgetIndex top strict_int X p = Fault BadCast /\
  (forall l, xatPosition top strict_int X l p = Fault BadCast) /\
  xmove top strict_int p X = Flt BadCast.
Proof.
  intros E top X p [HL HR] H. split; [now apply inside_no|]. split; [now apply index_no|]. split.
  - intros l. unfold xatPosition. now rewrite index_no.
  - now apply move_no.
Qed.
Print Assumptions C95_outside.

(** Where the conversion gives any int instead, getIndex returns false and atPosition throws. *)
Theorem C95_converted : forall (E : Env) top conv X p, sized X -> (forall a, exists k, conv a = Ok k) -> ~ finite2 p \/ ~ finite2 (xpos X) ->
  (exists i, xgetIndex top conv X p = Ok (false, i)) /\ (forall l, xatPosition top conv X l p = Throw OutOfRange).
Proof.
  intros E top conv X p [HL HR] T H.
  assert (G : exists i, xgetIndex top conv X p = Ok (false, i)).
  { unfold xgetIndex, xraw1. repeat match goal with |- context [conv ?a] => let k := fresh in destruct (T a) as [k ->]; cbn [rbind] end.
    rewrite inside_no by assumption. eexists. reflexivity. }
  split; [exact G|]. destruct G as [i G]. intros l. unfold xatPosition. now rewrite G.
Qed.
Print Assumptions C95_converted.

(** ** setGeometry *)

(** Lengths and resolutions must compare as positive, so NaN fails the assertion. An
    infinite length is undefined: the number of cells is no int. An infinite resolution
    gives a map without cells, whose length is NaN. Every position is accepted. *)
Theorem C95_geometry : forall (E : Env) top l r p X,
  (fst l = NaN \/ snd l = NaN \/ r = NaN -> xsetGeometry top strict_int l r p X = Flt AssertFailed) /\
  (nlt (Fin 0) (fst l) = true -> nlt (Fin 0) (snd l) = true -> finite r -> nlt (Fin 0) r = true -> ~ finite2 l ->
   xsetGeometry top strict_int l r p X = Flt BadCast) /\
  (nlt (Fin 0) (fst l) = true -> nlt (Fin 0) (snd l) = true -> finite2 l -> r = Inf false ->
   exists X', xsetGeometry top strict_int l r p X = Ret tt X' /\ size (xcells X') = (0, 0) /\ xlen X' = (NaN, NaN) /\ xpos X' = p) /\
  (forall X', xsetGeometry top strict_int l r p X = Ret tt X' -> xpos X' = p).
Proof.
  intros E top l r p X. split; [|split; [|split]].
  - intros H. unfold xsetGeometry. assert (K : nlt (Fin 0) (fst l) && nlt (Fin 0) (snd l) && nlt (Fin 0) r = false).
    { destruct H as [-> |[-> | ->]]; cbn; rewrite ?andb_false_r; reflexivity. }
    now rewrite K.
  - intros L0 L1 [q ->] R NF. unfold xsetGeometry. rewrite L0, L1, R. cbn [andb negb].
    assert (D : forall a, nlt (Fin 0) a = true -> ~ finite a -> strict_int (nround (ndiv top a (Fin q))) = Fault BadCast).
    { intros a _ NA. destruct a; [exfalso; apply NA; eexists; reflexivity|reflexivity..]. }
    assert (C : forall a, (exists k, strict_int a = Ok k) \/ strict_int a = Fault BadCast) by apply strict_cases.
    apply finite2_no in NF. destruct NF as [NF|NF]; [rewrite (D _ L0 NF); reflexivity|].
    rewrite (D _ L1 NF). destruct (C (nround (ndiv top (fst l) (Fin q)))) as [[k ->]| ->]; reflexivity.
  - intros L0 L1 [[a A] [b B]] ->. destruct l as [l0 l1]. cbn [fst snd] in *. subst. unfold xsetGeometry. cbn [fst snd]. rewrite L0, L1. cbn [nlt nle andb negb].
    cbn [ndiv nround strict_int]. change (Qround_away 0) with 0. rewrite !BaseLemmas.Qtrunc_Z. cbn [andb Z.leb Z.ltb Z.compare Z.pow Z.opp].
    eexists. split; [reflexivity|]. split; [reflexivity|]. split; reflexivity.
  - intros X'. unfold xsetGeometry. destruct (negb _); [discriminate|].
    destruct (strict_int (nround (ndiv top (fst l) r))) as [n0| |]; try discriminate;
      destruct (strict_int (nround (ndiv top (snd l) r))) as [n1| |]; try discriminate.
    destruct (bind _ _ _); try discriminate. intros K. injection K as <-. reflexivity.
Qed.
Print Assumptions C95_geometry.

(** ** Merging *)

Lemma xpos_no {E : Env} top X i p : ~ finite2 (xpos X) -> xgetPosition top X i = Some p -> ~ finite2 p.
Proof.
  intros H. unfold xgetPosition. destruct (index_in_range _ _); [|discriminate]. intros K. injection K as <-. intros [P0 P1]. cbn [fst snd] in *.
  apply finite2_no in H. destruct H as [H|H]; [revert P0|revert P1]; apply nadd_l, nadd_l, H.
Qed.

(** If one of the two maps is at an infinite or NaN position, merging copies nothing and
    returns true. Missing layers are added, unknown everywhere. *)
Theorem C95_merge : forall (E : Env) top conv X other overwrite copyAll ls, sized X -> sized other ->
  in_range (size (xcells X)) (start (xcells X)) -> reg_ok' (xcells X) -> basics_exist (xcells X) ->
  ~ finite2 (xpos X) \/ ~ finite2 (xpos other) ->
  let sel := if copyAll : bool then layers (xcells other) else ls in
  exists m', xaddDataFrom top conv other overwrite copyAll ls X = Ret true (XMap m' (xlen X) (xres X) (xpos X)) /\
    reg_ok' m' /\ same_meta (xcells X) m' /\
    (forall l, has_layer m' l <-> has_layer (xcells X) l \/ In l sel) /\
    (forall l i v, has_layer (xcells X) l -> (value_at m' l i v <-> value_at (xcells X) l i v)) /\
    (forall l i, has_layer m' l -> ~ has_layer (xcells X) l -> in_range (size (xcells X)) i -> value_at m' l i unknown).
Proof.
  intros E top conv X other over all ls SX SO ST R B NF sel. set (m := xcells X) in *.
  destruct (add_missing_list sel m R) as (m' & AM & R' & SM & HL & KD & NV & EX).
  exists m'.
  assert (ST' : in_range (size m') (start m')).
  { destruct SM as (_ & _ & _ & _ & _ & _ & <- & <-). exact ST. }
  assert (B' : basics_exist m').
  { intros b Hb. apply HL. left. apply B. destruct SM as (_ & _ & -> & _). exact Hb. }
  split.
  { unfold xaddDataFrom. fold sel. fold m. unfold bind at 1. rewrite AM. unfold bind at 1, lift. rewrite (map_visits_ok _ _ ST').
    assert (V : forall i, In i (visit_list (size m') (start m')) -> xmerge_cell top conv X other over sel i m' = Ret tt m').
    { intros i Hi. apply visit_list_In in Hi; [|exact ST']. unfold xmerge_cell, bind, lift.
      destruct (isValid_cell m' i (proj1 R') Hi B') as (b & -> & _). destruct (b && negb over); [reflexivity|].
      destruct (xgetPosition top (XMap m' (xlen X) (xres X) (xpos X)) i) as [p|] eqn:P.
      - rewrite inside_no; [reflexivity|apply SO|]. destruct NF as [NF|NF]; [left|now right]. revert P. apply xpos_no. exact NF.
      - exfalso. revert P. unfold xgetPosition. cbn [xcells]. rewrite (proj2 (index_in_range_iff _ _) Hi). discriminate. }
    assert (F : mfor (visit_list (size m') (start m')) (xmerge_cell top conv X other over sel) m' = Ret tt m').
    { revert V. generalize (visit_list (size m') (start m')). induction l as [|i l IH]; intros V; [reflexivity|].
      cbn [mfor]. rewrite (V i (or_introl eq_refl)). apply IH. intros j Hj. apply V. now right. }
    rewrite F. reflexivity. }
  split; [exact R'|]. split; [exact SM|]. split; [exact HL|]. split.
  - intros l i v [d D]. unfold value_at. rewrite D, (KD l d D). reflexivity.
  - intros l i H N I. apply HL in H. destruct H as [H|H]; [contradiction|]. now apply NV.
Qed.
Print Assumptions C95_merge.

(** ** Lines *)

Section Line.
Context {E : Env} (RN : forall q, (0 <= q)%Q -> (0 <= rnd q)%Q) (top : Q) (conv : num -> res Z) (sqr : Q -> Q).
Context (T : forall a, exists k, conv a = Ok k).

Definition has_nan (p : pair2) : Prop := fst p = NaN \/ snd p = NaN.
Lemma nan_no p : has_nan p -> ~ finite2 p.
Proof. intros [H|H] [[q A] [r B]]; congruence. Qed.
Lemma nadd_nan a : nadd top a NaN = NaN.
Proof. destruct a; reflexivity. Qed.
Lemma nmul_nan a : nmul top a NaN = NaN.
Proof. destruct a; reflexivity. Qed.

(** A square is not negative: finite, +inf or NaN. *)
Lemma square_cases a : (exists q, nmul top a a = Fin q) \/ nmul top a a = Inf false \/ (nmul top a a = NaN /\ a = NaN).
Proof.
  destruct a as [q|s|]; cbn; [|destruct s; auto|auto]. unfold nrnd. destruct (Qle_bool _ _); [|eauto].
  right. left. f_equal. unfold negative, Qlt_bool. apply negb_false_iff. apply Qle_bool_iff. apply RN. nra.
Qed.
Lemma square_inf s : nmul top (Inf s) (Inf s) = Inf false.
Proof. destruct s; reflexivity. Qed.
Lemma sum_inf a b : (a = Inf false /\ b <> NaN /\ b <> Inf true) \/ (b = Inf false /\ a <> NaN /\ a <> Inf true) -> nadd top a b = Inf false.
Proof.
  intros [(-> & H & K)|(-> & H & K)]; [destruct b as [q|[|]|]|destruct a as [q|[|]|]]; cbn; auto; congruence.
Qed.

(** The direction of a vector that is not finite has a NaN. *)
Lemma normalized_nan v : ~ finite2 v -> has_nan (xnormalized top sqr v).
Proof.
  intros H. unfold xnormalized. destruct v as [a b]. unfold xsqnorm. cbn [fst snd].
  destruct (square_cases a) as [[qa A]|[A|[A Na]]].
  - destruct (square_cases b) as [[qb B]|[B|[B Nb]]].
    + exfalso. apply H. split; cbn [fst snd]; [destruct a as [q|s|]|destruct b as [q|s|]]; try (eexists; reflexivity).
      * rewrite square_inf in A. discriminate.
      * discriminate.
      * rewrite square_inf in B. discriminate.
      * discriminate.
    + rewrite A, B. cbn [nadd nlt nle negb nsqrt]. destruct b as [q|s|]; [|right; destruct s; reflexivity|discriminate].
      (* the square of a finite number overflows: the other coordinate is finite too *)
      exfalso. apply H. split; cbn [fst snd]; [|eexists; reflexivity]. destruct a as [x|s|]; [eexists; reflexivity| |discriminate].
      rewrite square_inf in A. discriminate.
    + rewrite A, B. cbn. right. exact Nb.
  - destruct (square_cases b) as [[qb B]|[B|[B Nb]]].
    + rewrite A, B. cbn [nadd nlt nle negb nsqrt]. destruct a as [q|s|]; [|left; destruct s; reflexivity|discriminate].
      exfalso. apply H. split; cbn [fst snd]; [eexists; reflexivity|]. destruct b as [x|s|]; [eexists; reflexivity| |discriminate].
      rewrite square_inf in B. discriminate.
    + rewrite A, B. cbn [nadd Bool.eqb nlt nle negb nsqrt]. apply finite2_no in H. cbn [fst snd] in H.
      destruct H as [H|H].
      * destruct a as [q|s|]; [exfalso; apply H; eexists; reflexivity|left; destruct s; reflexivity|discriminate].
      * destruct b as [q|s|]; [exfalso; apply H; eexists; reflexivity|right; destruct s; reflexivity|discriminate].
    + rewrite A, B. cbn. right. exact Nb.
  - rewrite A. cbn. left. exact Na.
Qed.

Lemma diff_no a b : ~ finite2 a \/ ~ finite2 b -> ~ finite2 (xdiff top a b).
Proof.
  intros H [D0 D1]. unfold xdiff in *. cbn [fst snd] in *.
  destruct H as [H|H]; apply finite2_no in H; destruct H as [H|H];
    first [exact (nsub_l top _ _ H D0)|exact (nsub_r top _ _ H D0)|exact (nsub_l top _ _ H D1)|exact (nsub_r top _ _ H D1)].
Qed.

Lemma sqnorm_nan v : has_nan v -> xsqnorm top v = NaN.
Proof. intros [H|H]; unfold xsqnorm; rewrite H; cbn [nmul]; [reflexivity|apply nadd_nan]. Qed.
Lemma diff_nan a b : has_nan b -> has_nan (xdiff top a b).
Proof. intros [H|H]; unfold xdiff; [left|right]; cbn [fst snd]; rewrite H; cbn; apply nadd_nan. Qed.

Lemma loop_endless X en dir : sized X -> has_nan dir -> forall fuel st, xisInside top X st = false ->
  xlimit_loop top conv sqr X en dir fuel st = Fault OutOfFuel.
Proof.
  intros SX D. induction fuel as [|f IH]; intros st O; [reflexivity|]. cbn [xlimit_loop].
  unfold xgetIndex, xraw1. rewrite O.
  repeat match goal with |- context [conv ?a] => let k := fresh in destruct (T a) as [k ->]; cbn [rbind] end.
  set (st' := (nadd top (fst st) _, _)).
  assert (N : has_nan st').
  { destruct D as [D|D]; [left|right]; unfold st'; cbn [fst snd]; rewrite D, nmul_nan; apply nadd_nan. }
  rewrite (sqnorm_nan _ (diff_nan en st' N)). cbn [nsqrt nlt]. apply IH. apply inside_no; [apply SX|]. left. now apply nan_no.
Qed.

Lemma loop_inside X en dir f st : xisInside top X st = true -> exists i, xlimit_loop top conv sqr X en dir (S f) st = Ok (Some i).
Proof.
  intros I. cbn [xlimit_loop]. unfold xgetIndex, xraw1. rewrite I.
  repeat match goal with |- context [conv ?a] => let k := fresh in destruct (T a) as [k ->]; cbn [rbind] end. eexists. reflexivity.
Qed.

Lemma line_endless X st en fuel : sized X -> ~ finite2 st \/ ~ finite2 en -> xline_new top conv sqr X st en fuel = Fault OutOfFuel.
Proof.
  intros SX H. unfold xline_new, xlimited_index.
  assert (D1 : has_nan (xnormalized top sqr (xdiff top en st))) by (apply normalized_nan, diff_no; tauto).
  assert (D2 : has_nan (xnormalized top sqr (xdiff top st en))) by (apply normalized_nan, diff_no; tauto).
  destruct (xisInside top X st) eqn:I.
  - assert (NE : ~ finite2 en).
    { destruct H as [H|H]; [|exact H]. rewrite inside_no in I; [discriminate|apply SX|now left]. }
    destruct fuel as [|f]; [reflexivity|].
    destruct (loop_inside X en (xnormalized top sqr (xdiff top en st)) f st I) as [i ->]. cbn [rbind].
    rewrite loop_endless; auto. apply inside_no; [apply SX|now left].
  - rewrite loop_endless; auto.
Qed.
End Line.

(** LineIterator(map, start, end) with an infinite or NaN coordinate never returns, where
    conversions to int give some int. *)
Theorem C95_line : forall (E : Env), real_or_double E -> forall top conv sqr X st en fuel, sized X -> (forall a, exists k, conv a = Ok k) ->
  ~ finite2 st \/ ~ finite2 en -> xline_new top conv sqr X st en fuel = Fault OutOfFuel.
Proof.
  intros E RD top conv sqr X st en fuel SX T H. apply line_endless; auto.
  intros q Q. destruct RD as [EX|[p ->]]; [rewrite (EX q); exact Q|]. cbn. apply rne_pos; [lia|exact Q].
Qed.
Print Assumptions C95_line.

(** ** The inflation radius *)

(** NaN and minus infinity are a radius of 0 cells; infinity is undefined. *)
Theorem C95_radius : forall (E : Env) top X q, xres X = Fin q -> (0 < q)%Q ->
  xcell_radius top strict_unsigned NaN X = Ok 0 /\ xcell_radius top strict_unsigned (Inf true) X = Ok 0 /\
  xcell_radius top strict_unsigned (Inf false) X = Fault BadCast.
Proof.
  intros E top X q R P. unfold xcell_radius. rewrite R. cbn [ndiv nceil].
  assert (N : negative q = false). { unfold negative, Qlt_bool. apply negb_false_iff. apply Qle_bool_iff. lra. }
  rewrite N. cbn. auto.
Qed.
Print Assumptions C95_radius.

(** ** Finite numbers *)

Definition embed (m : cmap) : xmap := XMap m (fin2 (len m)) (Fin (resn m)) (fin2 (pos m)).
(** [X] is [m]: [m] with its geometry replaced has the contents of [X]. *)
Definition is_map (X : xmap) (m : cmap) : Prop :=
  xlen X = fin2 (len m) /\ xres X = Fin (resn m) /\ xpos X = fin2 (pos m) /\
  data (xcells X) = data m /\ layers (xcells X) = layers m /\ basic (xcells X) = basic m /\ size (xcells X) = size m /\
  start (xcells X) = start m /\ frame (xcells X) = frame m /\ stamp (xcells X) = stamp m.

Section Agree.
Context {E : Env} (N : Near E) (top : Q).

Lemma rnd_le q C : (Qabs q <= C)%Q -> (Qabs (rnd q) <= 2 * C)%Q.
Proof.
  intros H. apply Qabs_Qle_condition in H as [H1 H2]. destruct (nr N q C H1 H2) as [A B]. unfold ulp in *.
  apply Qabs_Qle_condition. split; lra.
Qed.
Lemma nrnd_fin q C : (Qabs (rnd q) <= C)%Q -> (C < top)%Q -> nrnd top q = Fin (rnd q).
Proof.
  intros H K. unfold nrnd. destruct (Qle_bool top (Qabs (rnd q))) eqn:T; [|reflexivity]. apply Qle_bool_iff in T. lra.
Qed.
Lemma nrnd_small q C : (Qabs q <= C)%Q -> (2 * C < top)%Q -> nrnd top q = Fin (rnd q).
Proof. intros H K. apply (nrnd_fin q (2 * C)); [now apply rnd_le|exact K]. Qed.

Lemma abs_add a b A B : (Qabs a <= A)%Q -> (Qabs b <= B)%Q -> (Qabs (a + b) <= A + B)%Q.
Proof. intros H K. eapply Qle_trans; [apply Qabs_triangle|]. lra. Qed.
Lemma abs_sub a b A B : (Qabs a <= A)%Q -> (Qabs b <= B)%Q -> (Qabs (a - b) <= A + B)%Q.
Proof. intros H K. apply abs_add; [exact H|]. now rewrite Qabs_opp. Qed.
Lemma abs_half a A : (Qabs a <= A)%Q -> (Qabs ((1#2) * a) <= (1#2) * A)%Q.
Proof. intros H. rewrite Qabs_Qmult. change (Qabs (1#2)) with (1#2). lra. Qed.

Lemma nadd_fin a b A B : (Qabs a <= A)%Q -> (Qabs b <= B)%Q -> (2 * (A + B) < top)%Q ->
  nadd top (Fin a) (Fin b) = Fin (fadd a b) /\ (Qabs (fadd a b) <= 2 * (A + B))%Q.
Proof. intros H K T. pose proof (abs_add a b A B H K) as S. split; [now apply (nrnd_small _ (A + B))|now apply rnd_le]. Qed.
Lemma nsub_fin a b A B : (Qabs a <= A)%Q -> (Qabs b <= B)%Q -> (2 * (A + B) < top)%Q ->
  nsub top (Fin a) (Fin b) = Fin (fsub a b) /\ (Qabs (fsub a b) <= 2 * (A + B))%Q.
Proof. intros H K T. pose proof (abs_sub a b A B H K) as S. split; [now apply (nrnd_small _ (A + B))|now apply rnd_le]. Qed.
Lemma nhalf_fin a A : (Qabs a <= A)%Q -> (A < top)%Q ->
  nmul top half (Fin a) = Fin (fmul (1#2) a) /\ (Qabs (fmul (1#2) a) <= A)%Q.
Proof.
  intros H T. pose proof (abs_half a A H) as S. split; [apply (nrnd_small _ ((1#2) * A)); [exact S|lra]|].
  pose proof (rnd_le _ _ S). unfold fmul. lra.
Qed.

Lemma trunc_abs q : (Qabs q < inject_Z (Z.abs (Qtrunc q) + 1))%Q.
Proof.
  destruct (Qlt_le_dec q 0) as [C|C].
  - assert (K : Qtrunc q = - Qfloor (- q)). { rewrite <- BaseLemmas.Qtrunc_nonneg by lra. rewrite BaseLemmas.Qtrunc_opp. lia. }
    assert (A' : Qfloor (inject_Z 0) <= Qfloor (- q)) by (apply Qfloor_resp_le; change (inject_Z 0) with 0%Q; lra). rewrite Qfloor_Z in A'.
    rewrite K, Z.abs_opp, Z.abs_eq by lia. rewrite Qabs_neg by lra. apply Qlt_floor.
  - assert (A' : Qfloor (inject_Z 0) <= Qfloor q) by (apply Qfloor_resp_le; change (inject_Z 0) with 0%Q; lra). rewrite Qfloor_Z in A'.
    rewrite BaseLemmas.Qtrunc_nonneg by auto. rewrite Z.abs_eq by lia. rewrite Qabs_pos by auto. apply Qlt_floor.
Qed.
Lemma strict_fin q k : Qtrunc q = k -> -2147483648 < k < 2147483648 -> strict_int (Fin q) = Ok k.
Proof. intros <- H. cbn [strict_int]. change (2 ^ 31) with 2147483648. change (- (2147483648)) with (-2147483648). cbv zeta. destruct (Z.leb_spec (-2147483648) (Qtrunc q)), (Z.ltb_spec (Qtrunc q) 2147483648); try lia. reflexivity. Qed.

(** A quotient that rounds to less than 2^31 does not overflow. *)
Lemma ndiv_fin a r : (0 < r)%Q -> (4294967296#1 <= top)%Q -> -2147483648 < Qtrunc (fdiv a r) < 2147483648 -> ndiv top (Fin a) (Fin r) = Fin (fdiv a r).
Proof.
  intros R T H. cbn [ndiv]. assert (Z0 : Qeq_bool r 0 = false). { destruct (Qeq_bool r 0) eqn:K; auto. apply Qeq_bool_iff in K. lra. }
  rewrite Z0. apply (nrnd_fin _ (2147483648#1)); [|lra]. pose proof (trunc_abs (fdiv a r)) as A. unfold fdiv in *.
  assert (B : (inject_Z (Z.abs (Qtrunc (rnd (a / r))) + 1) <= inject_Z 2147483648)%Q) by (rewrite <- Zle_Qle; lia).
  change (inject_Z 2147483648) with (2147483648#1) in B. lra.
Qed.

Section Map.
Context (W : Z) (m : cmap) (HW : W <= 2 ^ 44) (G : dgeo W m) (S : small (size m)) (T32 : (4294967296#1 <= top)%Q)
  (TR : (inject_Z (2 ^ 52) * resn m <= top)%Q).
Let r := resn m.
Let b := ((35184372088832#1) * r)%Q.
Lemma rpos : (0 < r)%Q. Proof. apply G. Qed.
Lemma TB : (128 * b <= top)%Q.
Proof. unfold b. change (inject_Z (2 ^ 52)) with (4503599627370496#1) in TR. fold r in TR. pose proof rpos. lra. Qed.
Lemma BP : (0 < b)%Q. Proof. unfold b. pose proof rpos. lra. Qed.

Lemma axis_bounds n L c : 1 <= n < limit -> (Qabs (L - inject_Z n * r) <= ulp * (inject_Z n * r))%Q -> (Qabs c + inject_Z n * r <= inject_Z W * r)%Q ->
  (Qabs L <= b /\ Qabs c <= b /\ inject_Z n * r <= b /\ forall p, Qabs (p - c) <= (536870912#1) * r -> Qabs p <= b)%Q.
Proof.
  intros Hn HL HC. pose proof rpos as R. unfold limit in Hn.
  assert (N1 : (0 <= inject_Z n * r /\ inject_Z n * r <= (536870912#1) * r)%Q).
  { split; [apply Qmult_le_0_compat; [change 0%Q with (inject_Z 0); rewrite <- Zle_Qle; lia|lra]|].
    apply Qmult_le_compat_r; [|lra]. change (536870912#1) with (inject_Z 536870912). rewrite <- Zle_Qle. lia. }
  assert (W1 : (inject_Z W * r <= (17592186044416#1) * r)%Q).
  { apply Qmult_le_compat_r; [|lra]. change (17592186044416#1) with (inject_Z (2^44)). rewrite <- Zle_Qle. lia. }
  set (nr' := (inject_Z n * r)%Q) in *. set (wr := (inject_Z W * r)%Q) in *. clearbody nr' wr.
  apply Qabs_Qle_condition in HL as [L1 L2]. unfold ulp in *.
  assert (Cc : (Qabs c <= (17592186044416#1) * r)%Q) by lra. unfold b.
  split; [apply Qabs_Qle_condition; split; lra|]. split; [lra|]. split; [lra|].
  intros p P. apply Qabs_Qle_condition in P as [P1 P2]. apply Qabs_Qle_condition in Cc as [C1 C2]. apply Qabs_Qle_condition. split; lra.
Qed.

Lemma within_fin p L c : (Qabs p <= b)%Q -> (Qabs L <= b)%Q -> (Qabs c <= b)%Q -> xwithin1 top (Fin p) (Fin L) (Fin c) = within1 p L c.
Proof.
  intros P HL C. pose proof TB as TB. pose proof BP as BP. unfold xwithin1, within1.
  destruct (nsub_fin p c b b P C) as [-> H1]; [lra|]. destruct (nhalf_fin L b HL) as [-> H2]; [lra|].
  destruct (nsub_fin _ _ _ _ H1 H2) as [-> H3]; [lra|]. cbn [nneg nle nlt]. unfold Qlt_bool. reflexivity.
Qed.

Lemma raw_fin p L c : (Qabs p <= b)%Q -> (Qabs L <= b)%Q -> (Qabs c <= b)%Q -> -1073741824 <= raw_index1 p L c r <= 1073741824 ->
  xraw1 top strict_int (Fin p) (Fin L) (Fin c) (Fin r) = Ok (raw_index1 p L c r).
Proof.
  intros P HL C I. pose proof TB as TB. pose proof BP as BP. unfold xraw1. unfold raw_index1 in *. rewrite BaseLemmas.Qtrunc_opp in *.
  destruct (nhalf_fin L b HL) as [-> H1]; [lra|]. destruct (nsub_fin _ _ _ _ P H1) as [-> H2]; [lra|].
  destruct (nsub_fin _ _ _ _ H2 C) as [-> H3]; [lra|]. rewrite ndiv_fin by (try apply rpos; try assumption; lia).
  rewrite (strict_fin _ _ eq_refl) by lia. reflexivity.
Qed.

Lemma position_fin k L c n : (Qabs L <= b)%Q -> (Qabs c <= b)%Q -> (inject_Z n * r <= b)%Q -> 0 <= k < n ->
  xposition1 top k (Fin L) (Fin c) (Fin r) = Fin (position1 k L c r).
Proof.
  intros HL C HN K. pose proof TB as TB. pose proof BP as BP. pose proof rpos as R. unfold xposition1, position1.
  assert (RB : (Qabs r <= b)%Q). { rewrite Qabs_pos by lra. unfold b. lra. }
  destruct (nhalf_fin L b HL) as [-> H1]; [lra|]. destruct (nhalf_fin r b RB) as [-> H2]; [lra|].
  destruct (nsub_fin _ _ _ _ H1 H2) as [-> H3]; [lra|]. destruct (nadd_fin _ _ _ _ C H3) as [-> H4]; [lra|].
  assert (KB : (Qabs (r * inject_Z (- k)) <= b)%Q).
  { rewrite Qabs_Qmult, (Qabs_pos r) by lra. rewrite inject_Z_opp, Qabs_opp, Qabs_pos by (change 0%Q with (inject_Z 0); rewrite <- Zle_Qle; lia).
    eapply Qle_trans; [|exact HN]. rewrite Qmult_comm. apply Qmult_le_compat_r; [rewrite <- Zle_Qle; lia|lra]. }
  assert (M : nmul top (Fin r) (Fin (inject_Z (- k))) = Fin (fmul r (inject_Z (- k)))) by (apply (nrnd_small _ b); [exact KB|lra]).
  rewrite M. destruct (nadd_fin _ _ _ _ H4 (rnd_le _ _ KB)) as [H5 _]; [lra|]. exact H5.
Qed.

Lemma shift_fin d : (Qabs d <= (536870912#1) * r)%Q -> xshift1 top strict_int (Fin (rnd d)) (Fin r) = Ok (index_shift1 (rnd d) r) /\
  -1073741824 <= index_shift1 (rnd d) r <= 1073741824.
Proof.
  intros D. apply Qabs_Qle_condition in D as [D1 D2]. destruct (ishift_ok N d r rpos D1 D2) as [_ I]. split; [|exact I].
  destruct (nr N d _ D1 D2) as [A1 A2].
  destruct (div_bounds (rnd d) r (536870913#1) rpos) as [B1 B2]; [unfold ulp in *; lra|unfold ulp in *; lra|].
  destruct (nr N (rnd d / r) _ B1 B2) as [C1 C2].
  assert (X : (Qabs (fdiv (rnd d) r) <= 536870915#1)%Q). { unfold fdiv, ulp in *. apply Qabs_Qle_condition. split; lra. }
  unfold xshift1. assert (DV : ndiv top (Fin (rnd d)) (Fin r) = Fin (fdiv (rnd d) r)).
  { cbn [ndiv]. pose proof rpos as R. assert (Z0 : Qeq_bool r 0 = false). { destruct (Qeq_bool r 0) eqn:K; auto. apply Qeq_bool_iff in K. lra. }
    rewrite Z0. apply (nrnd_fin _ _ X). lra. }
  rewrite DV. cbn [nlt nle]. unfold index_shift1 in *. cbv zeta in *. fold (Qlt_bool 0 (fdiv (rnd d) r)). rewrite BaseLemmas.Qtrunc_opp in *.
  assert (H : (if Qlt_bool 0 (fdiv (rnd d) r) then half else nneg half) = Fin (if Qlt_bool 0 (fdiv (rnd d) r) then 1#2 else - (1#2))%Q)
    by (destruct (Qlt_bool 0 (fdiv (rnd d) r)); reflexivity).
  rewrite H. destruct (nadd_fin (fdiv (rnd d) r) (if Qlt_bool 0 (fdiv (rnd d) r) then 1#2 else - (1#2))%Q _ (1#2) X) as [-> _];
    [destruct (Qlt_bool 0 (fdiv (rnd d) r)); reflexivity || (cbn; lra)|lra|].
  rewrite (strict_fin _ _ eq_refl) by lia. reflexivity.
Qed.
End Map.
End Agree.

(** With finite numbers that do not overflow all of this is what CostMap.v says: on maps
    within W <= 2^44 cells of the origin, with fewer than 2^29 rows and columns, whose
    resolution is at most 2^-52 of the largest double, for positions within 2^29 cells of the centre. *)
Theorem C95_finite : forall (E : Env), real_or_double E -> forall top W m p, W <= 2 ^ 44 -> dgeo W m ->
  fst (size m) < 2 ^ 29 -> snd (size m) < 2 ^ 29 -> (inject_Z (2 ^ 32) <= top)%Q -> (inject_Z (2 ^ 52) * resn m <= top)%Q ->
  close (inject_Z (2 ^ 29) * resn m) p (pos m) ->
  xisInside top (embed m) (fin2 p) = isInside m p /\
  xgetIndex top strict_int (embed m) (fin2 p) = Ok (getIndex m p) /\
  (forall l, xatPosition top strict_int (embed m) l (fin2 p) = atPosition m l p) /\
  (forall i, xgetPosition top (embed m) i = option_map fin2 (getPosition m i)) /\
  (reg_ok' m -> basics_exist m -> forall a m', move p m = Ret a m' ->
     exists X', xmove top strict_int (fin2 p) (embed m) = Ret a X' /\ is_map X' m').
Proof.
  intros E RD top W m p HW G N0 N1 T32 TR [P0 P1]. pose proof (near_real E RD) as N.
  assert (S : small (size m)) by (split; assumption).
  change (inject_Z (2 ^ 32)) with (4294967296#1) in T32. change (inject_Z (2 ^ 29)) with (536870912#1) in P0, P1.
  pose proof (rpos W m G) as R. pose proof (TB top W m G TR) as TBB. pose proof (BP W m G) as BPP.
  set (b := ((35184372088832 # 1) * resn m)%Q) in *.
  destruct (d_size _ _ G) as [D0 D1].
  destruct (axis_bounds W m HW G (fst (size m)) (fst (len m)) (fst (pos m))) as (L0 & C0 & S0 & X0); [unfold limit; lia|apply G|apply G|].
  destruct (axis_bounds W m HW G (snd (size m)) (snd (len m)) (snd (pos m))) as (L1 & C1 & S1 & X1); [unfold limit; lia|apply G|apply G|].
  specialize (X0 _ P0). specialize (X1 _ P1). fold b in L0, L1, C0, C1, S0, S1, X0, X1.
  assert (IN : xisInside top (embed m) (fin2 p) = isInside m p).
  { unfold xisInside, isInside, position_within_map. cbn [embed xlen xpos fin2 fst snd].
    rewrite !(within_fin N top W m G T32 TR); auto. }
  assert (IX : xgetIndex top strict_int (embed m) (fin2 p) = Ok (getIndex m p)).
  { unfold xgetIndex. rewrite IN. cbn [embed xlen xpos xres xcells fin2 fst snd].
    destruct (iraw_ok N (fst (size m)) (fst p) (fst (len m)) (fst (pos m)) (resn m) W) as [_ I0]; auto; try apply G; [unfold limit; lia|].
    destruct (iraw_ok N (snd (size m)) (snd p) (snd (len m)) (snd (pos m)) (resn m) W) as [_ I1]; auto; try apply G; [unfold limit; lia|].
    rewrite !(raw_fin N top W m G T32 TR); auto. }
  split; [exact IN|]. split; [exact IX|]. split.
  { intros l. unfold xatPosition, atPosition. rewrite IX. cbn [rbind embed xcells]. destruct (getIndex m p) as [[|] i]; reflexivity. }
  split.
  { intros i. unfold xgetPosition, getPosition, position_from_index. cbn [embed xlen xpos xres xcells].
    destruct (index_in_range i (size m)) eqn:K; [|reflexivity]. apply index_in_range_iff in K.
    pose proof (unwrap_in_range i (size m) (start m) K (d_start _ _ G)) as [U0 U1]. cbn [option_map fin2 fst snd].
    rewrite (position_fin N top W m G T32 TR _ _ _ (fst (size m))), (position_fin N top W m G T32 TR _ _ _ (snd (size m))); auto. }
  intros RG B a m' MV. unfold xmove. cbn [embed xlen xpos xres xcells fin2 fst snd].
  destruct (nsub_fin N top _ _ _ _ X0 C0) as [-> _]; [lra|]. destruct (nsub_fin N top _ _ _ _ X1 C1) as [-> _]; [lra|].
  destruct (shift_fin N top W m G T32 _ P0) as [K0 I0]. destruct (shift_fin N top W m G T32 _ P1) as [K1 I1].
  unfold fsub. rewrite K0, K1. unfold move, fsub in MV. cbv zeta in MV.
  set (k0 := index_shift1 (rnd (fst p - fst (pos m))) (resn m)) in *. set (k1 := index_shift1 (rnd (snd p - snd (pos m))) (resn m)) in *.
  destruct (move_axis_any true k0 m RG B D0) as (r0 & m1 & A0 & (RG1 & Ly1 & SM1 & HL1 & _)).
  assert (B1 : basics_exist m1). { intros l Hl. apply HL1. apply B. destruct SM1 as (_ & _ & -> & _). exact Hl. }
  assert (SZ1 : size m1 = size m) by (destruct SM1 as (_ & _ & _ & _ & _ & _ & -> & _); reflexivity).
  destruct (move_axis_any false k1 m1 RG1 B1) as (r1 & m2 & A1 & (RG2 & Ly2 & SM2 & HL2 & _)); [rewrite SZ1; exact D1|].
  pose proof (same_meta_trans _ _ _ SM1 SM2) as SM. destruct SM as (F1 & F2 & F3 & F4 & F5 & F6 & F7 & F8).
  unfold bind in MV |- *. rewrite A0 in MV |- *. rewrite A1 in MV |- *. unfold ret at 1.
  destruct (match bpol with BClamp => false | BWrap => _ end); [discriminate|].
  injection MV as <- <-. eexists. split; [reflexivity|]. unfold is_map. cbn [xlen xres xpos xcells set_pos set_start len resn pos data layers basic size start frame stamp fst snd].
  rewrite <- F4, <- F5, <- F6. split; [reflexivity|]. split; [reflexivity|]. split; [|repeat split].
  assert (PS : forall k c, (Qabs c <= b)%Q -> (Qabs (inject_Z k * resn m) <= b)%Q ->
    nadd top (Fin c) (nmul top (Fin (inject_Z k)) (Fin (resn m))) = Fin (fadd c (position_shift1 (- k) (resn m)))).
  { intros k c Hc Hk. unfold position_shift1. rewrite Z.opp_involutive.
    assert (Mu : nmul top (Fin (inject_Z k)) (Fin (resn m)) = Fin (fmul (inject_Z k) (resn m))) by (apply (nrnd_small N top _ b Hk); lra).
    rewrite Mu. destruct (nadd_fin N top _ _ _ _ Hc (rnd_le N _ _ Hk)) as [H5 _]; [lra|]. exact H5. }
  assert (KB : forall k, -1073741824 <= k <= 1073741824 -> (Qabs (inject_Z (- k) * resn m) <= b)%Q).
  { intros k Hk. rewrite Qabs_Qmult, (Qabs_pos (resn m)) by lra. unfold b. apply Qmult_le_compat_r; [|lra].
    apply Qabs_Qle_condition. change (35184372088832 # 1) with (inject_Z 35184372088832). rewrite <- inject_Z_opp, <- !Zle_Qle. lia. }
  unfold fin2. cbn [fst snd]. rewrite (PS (- k0) _ C0 (KB _ I0)), (PS (- k1) _ C1 (KB _ I1)), !Z.opp_involutive. reflexivity.
Qed.
Print Assumptions C95_finite.

(** Doubles: everything from 2^1024 on is infinite. *)
Definition double_top : Q := inject_Z (2 ^ 1024).

Example C95_case : let E := binary64 BWrap in let X := embed decimal' in
  real_or_double E /\ dgeo 1000 decimal' /\ (inject_Z (2 ^ 52) * resn decimal' <= double_top)%Q /\
  sized X /\ reg_ok' (xcells X) /\ ~ finite2 (NaN, Fin 0) /\ ~ finite2 (Fin 0, Inf true) /\
  xisInside (E := E) double_top X (NaN, Fin 0) = false /\
  xgetIndex (E := E) double_top strict_int X (fin2 (pos decimal')) = Ok (getIndex (E := E) decimal' (pos decimal')) /\
  xgetIndex (E := E) double_top strict_int X (Fin 0, Inf true) = Fault BadCast /\
  nadd (E := E) double_top (Fin (inject_Z (2 ^ 1023))) (Fin (inject_Z (2 ^ 1023))) = Inf false /\
  xcell_radius (E := E) double_top strict_unsigned (Fin (5#2)) X = cell_radius (E := E) (5#2) decimal'.
Proof.
  cbv zeta. split; [right; eexists; reflexivity|]. split; [dgeo_vm|]. split; [vm_compute; discriminate|].
  split; [repeat split; eexists; reflexivity|]. split; [refine (reg_okb_ok decimal' _); vm_compute; reflexivity|].
  split; [intros [[q H] _]; discriminate|]. split; [intros [_ [q H]]; discriminate|].
  split; [vm_compute; reflexivity|]. split; [vm_compute; reflexivity|]. split; [vm_compute; reflexivity|]. split; vm_compute; reflexivity.
Qed.
