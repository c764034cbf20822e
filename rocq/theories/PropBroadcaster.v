(** Property C79: the broadcaster of transforms. *)
From Coq Require Import ZArith QArith String List Bool Sorted Lia.
From Verif Require Import Broadcaster.
Import ListNotations.
Open Scope string_scope.

(** [t] is the first transform that was added under the name [n]. *)
Definition first_added (es : list event) (n : string) (t : transform) : Prop :=
  exists before after, es = (before ++ Add n t :: after)%list /\ forall t', ~ In (Add n t') before.

(** The messages of whole rounds over [fs], then the first [p] of another. *)
Definition rounds (fs : frames) (k p : nat) : frames := (List.concat (repeat fs k) ++ firstn p fs)%list.

Definition by_name (f g : string * transform) : Prop := String.compare (fst f) (fst g) = Lt.

Lemma unfold_app es : forall es' b, unfold_events (es ++ es') b =
  match unfold_events es b with Runs b' => unfold_events es' b' | r => r end.
Proof. induction es as [|e es IH]; intros es' b; auto. cbn. destruct (happen e b); auto. Qed.

Lemma present_In n fs : present n fs = true <-> In n (map fst fs).
Proof.
  unfold present. rewrite existsb_exists, in_map_iff. split; intros (f & A & B).
  - apply String.eqb_eq in B. eauto.
  - exists f. rewrite A. split; auto. apply String.eqb_refl.
Qed.

Lemma place_In n t fs f : In f (place n t fs) <-> f = (n, t) \/ In f fs.
Proof.
  induction fs as [|g fs IH]; cbn [place In]; [intuition|]. destruct (String.compare n (fst g)); cbn [In]; rewrite ?IH; intuition.
Qed.

Lemma place_sorted n t fs : ~ In n (map fst fs) -> Sorted by_name fs -> Sorted by_name (place n t fs).
Proof.
  induction fs as [|g fs IH]; intros N S; cbn [place]; [repeat constructor|].
  destruct (String.compare n (fst g)) eqn:C.
  - apply String.compare_eq_iff in C. exfalso. apply N. now left.
  - constructor; auto.
  - inversion S as [|? ? S1 S2]; subst. constructor; [apply IH; auto; intros K; apply N; now right|].
    assert (G : by_name g (n, t)) by (unfold by_name; cbn [fst]; now rewrite String.compare_antisym, C).
    destruct fs as [|h fs]; cbn [place]; [now constructor|]. inversion S2; subst.
    destruct (String.compare n (fst h)); now constructor.
Qed.

(** What every run keeps. *)
Record sound (es : list event) (b : broadcaster) : Prop := Sound
  { s_in : forall n t, In (n, t) (b_frames b) <-> first_added es n t;
    s_sorted : Sorted by_name (b_frames b);
    s_un : b_phase b = Unstarted <-> ~ In Start es;
    s_flag : b_flag b = true <-> In Shutdown es;
    s_ok : b_ok b = false <-> In RosDown es;
    s_sent : exists k p, b_sent b = rounds (b_frames b) k p /\
      match b_phase b with
      | Unstarted => b_sent b = []
      | Sending rest => (firstn p (b_frames b) ++ rest)%list = b_frames b /\ (p <= length (b_frames b))%nat
      | _ => p = 0%nat
      end }.

Lemma first_added_app es e n t : first_added (es ++ [e]) n t <->
  first_added es n t \/ (e = Add n t /\ forall t', ~ In (Add n t') es).
Proof.
  split.
  - intros (u & v & Q & N). destruct v as [|w v] using rev_ind.
    + apply app_inj_tail in Q as [-> ->]. auto.
    + rewrite app_comm_cons, app_assoc in Q. apply app_inj_tail in Q as [-> ->]. left. exists u, v. auto.
  - intros [(u & v & -> & N)|[-> N]]; [exists u, (v ++ [e])%list; split; auto; now rewrite <- app_assoc|].
    exists es, []. auto.
Qed.

Lemma added_first es n t : In (Add n t) es -> exists t', first_added es n t'.
Proof.
  induction es as [|e es IH] using rev_ind; intros H; [destruct H|]. apply in_app_iff in H.
  assert (D : (exists t', first_added es n t') \/ forall t', ~ In (Add n t') es).
  { clear. induction es as [|e es IH] using rev_ind; [right; intros ? []|]. destruct IH as [[t' H]|IH].
    - left. exists t'. apply first_added_app. now left.
    - assert (C : (exists t', e = Add n t') \/ forall t', e <> Add n t').
      { destruct e as [n' t'| | | |]; try (right; discriminate). destruct (String.string_dec n' n) as [->|N]; [left; eauto|].
        right. intros t'' Q. injection Q; intros; contradiction. }
      destruct C as [[t' ->]|C]; [left; exists t'; apply first_added_app; auto|].
      right. intros t' K. apply in_app_iff in K as [K|[K|[]]]; [exact (IH t' K)|exact (C t' K)]. }
  destruct D as [[t' D]|D]; [exists t'; apply first_added_app; now left|].
  destruct H as [H|[->|[]]]; [exfalso; exact (D _ H)|]. exists t. apply first_added_app. auto.
Qed.

Lemma rounds_next fs k : rounds fs k (length fs) = rounds fs (S k) 0.
Proof.
  unfold rounds. rewrite firstn_all. cbn [firstn]. rewrite app_nil_r. rewrite <- (app_nil_r fs) at 2.
  change (fs ++ [])%list with (List.concat (repeat fs 1)). rewrite <- concat_app, <- repeat_app, Nat.add_1_r. reflexivity.
Qed.

Lemma not_last (x e : event) es : e <> x -> (In x (es ++ [e]) <-> In x es).
Proof. intros N. rewrite in_app_iff. cbn. intuition. Qed.

Lemma runs_sound es : forall b, unfold_events es new_broadcaster = Runs b -> sound es b.
Proof.
  induction es as [|e es IH] using rev_ind; intros b H.
  - injection H as <-. split; cbn.
    + intros n t. split; [intros []|]. intros (u & v & Q & _). destruct u; discriminate.
    + constructor.
    + tauto.
    + split; [discriminate|tauto].
    + split; [discriminate|tauto].
    + exists 0%nat, 0%nat. auto.
  - rewrite unfold_app in H. destruct (unfold_events es new_broadcaster) as [a| |] eqn:A; try discriminate.
    specialize (IH a eq_refl). destruct IH as [I1 I2 I3 I4 I5 (k & p & I6 & I7)]. cbn in H.
    assert (NA : forall n t, (forall t', e <> Add n t') -> (first_added (es ++ [e]) n t <-> first_added es n t)).
    { intros n t N. rewrite first_added_app. split; [intros [K|[K _]]; auto; now apply N in K|now left]. }
    destruct e as [n t| | | |]; cbn [happen] in H.
    + unfold add_frame in H. destruct (present n (b_frames a)) eqn:P.
      * injection H as <-. apply present_In, in_map_iff in P as ([n' t0] & Q & P). cbn in Q. subst n'.
        apply I1 in P as (u & v & -> & N).
        split; auto.
        -- intros n' t'. rewrite first_added_app, I1. split; auto. intros [K|[K K']]; auto. injection K as <- <-.
           exfalso. apply (K' t0). apply in_app_iff. right. now left.
        -- rewrite I3, not_last by discriminate. reflexivity.
        -- rewrite I4, not_last by discriminate. reflexivity.
        -- rewrite I5, not_last by discriminate. reflexivity.
        -- exists k, p. auto.
      * destruct (b_phase a) eqn:Ph; try discriminate. injection H as <-.
        assert (PN : ~ In n (map fst (b_frames a))) by (rewrite <- present_In, P; discriminate).
        assert (N0 : forall t', ~ In (Add n t') es).
        { intros t' K. apply added_first in K as [t0 K]. apply I1 in K. apply PN. apply in_map_iff. exists (n, t0). auto. }
        split; cbn [b_frames b_phase b_flag b_ok b_sent].
        -- intros n' t'. rewrite place_In, first_added_app, I1. split.
           ++ intros [K|K]; auto. injection K as -> ->. auto.
           ++ intros [K|[K _]]; auto. injection K as -> ->. auto.
        -- now apply place_sorted.
        -- rewrite in_app_iff. cbn. split; auto. intros _ [K|[K|[]]]; [|discriminate]. now apply I3 in K.
        -- rewrite I4, not_last by discriminate. reflexivity.
        -- rewrite I5, not_last by discriminate. reflexivity.
        -- rewrite I7. exists 0%nat, 0%nat. auto.
    + unfold start_thread in H. destruct (b_phase a) eqn:Ph; try discriminate. injection H as <-.
      split; cbn [b_frames b_phase b_flag b_ok b_sent]; auto.
      * intros n t. rewrite I1, NA; [tauto|discriminate].
      * rewrite in_app_iff. cbn. split; [discriminate|tauto].
      * rewrite I4, not_last by discriminate. reflexivity.
      * rewrite I5, not_last by discriminate. reflexivity.
      * exists 0%nat, 0%nat. rewrite I7. auto.
    + injection H as <-. split; cbn [b_frames b_phase b_flag b_ok b_sent]; auto.
      * intros n t. rewrite I1, NA; [tauto|discriminate].
      * rewrite I3, not_last by discriminate. reflexivity.
      * rewrite in_app_iff. cbn. tauto.
      * rewrite I5, not_last by discriminate. reflexivity.
      * eauto.
    + injection H as <-. split; cbn [b_frames b_phase b_flag b_ok b_sent]; auto.
      * intros n t. rewrite I1, NA; [tauto|discriminate].
      * rewrite I3, not_last by discriminate. reflexivity.
      * rewrite I4, not_last by discriminate. reflexivity.
      * rewrite in_app_iff. cbn. tauto.
      * eauto.
    + injection H as <-.
      assert (F : b_frames (thread_step a) = b_frames a /\ b_flag (thread_step a) = b_flag a /\ b_ok (thread_step a) = b_ok a /\
                  (b_phase (thread_step a) = Unstarted <-> b_phase a = Unstarted)).
      { unfold thread_step. destruct (b_phase a) as [| |[|f rest]|] eqn:Ph; cbn; rewrite ?Ph; repeat split; auto; try discriminate.
        - destruct (b_ok a && negb (b_flag a)); discriminate. }
      destruct F as (F1 & F2 & F3 & F4). split; rewrite ?F1, ?F2, ?F3; auto.
      * intros n t. rewrite I1, NA; [tauto|discriminate].
      * rewrite F4, I3, not_last by discriminate. reflexivity.
      * rewrite I4, not_last by discriminate. reflexivity.
      * rewrite I5, not_last by discriminate. reflexivity.
      * unfold thread_step. destruct (b_phase a) as [| |[|f rest]|] eqn:Ph; cbn; rewrite ?Ph.
        -- eauto.
        -- subst p. exists k, 0%nat. split; auto. destruct (b_ok a && negb (b_flag a)); [|reflexivity]. split; [reflexivity|lia].
        -- destruct I7 as [I7 L]. rewrite app_nil_r in I7. exists (S k), 0%nat. split; [|reflexivity].
           rewrite <- rounds_next, I6. unfold rounds. now rewrite I7, firstn_all.
        -- destruct I7 as [I7 L]. exists k, (S p).
           assert (L2 : length (firstn p (b_frames a)) = p) by (rewrite firstn_length; lia).
           assert (L3 : (S p <= length (b_frames a))%nat).
           { pose proof (f_equal (@length _) I7) as L4. rewrite app_length, L2 in L4. cbn [length] in L4. lia. }
           assert (FS : firstn (S p) (b_frames a) = (firstn p (b_frames a) ++ [f])%list).
           { rewrite <- I7 at 1. rewrite firstn_app, L2. replace (S p - p)%nat with 1%nat by lia.
             rewrite firstn_firstn, Nat.min_r by lia. reflexivity. }
           split; [rewrite I6; unfold rounds; now rewrite FS, app_assoc|]. split; [|exact L3].
           rewrite FS, <- app_assoc. exact I7.
        -- eauto.
Qed.

(** C79. In every run that neither ends the program nor races, the table holds
    for each name the transform added first under it, and the thread sends the
    whole table over and over, in the order of the names. *)
Theorem C79_rounds : forall es b, unfold_events es new_broadcaster = Runs b ->
  (forall n t, In (n, t) (b_frames b) <-> first_added es n t) /\ Sorted by_name (b_frames b) /\
  (exists k p, b_sent b = rounds (b_frames b) k p /\ (p <= length (b_frames b))%nat) /\ (~ In Start es -> b_sent b = []).
Proof.
  intros es b H. destruct (runs_sound es b H) as [I1 I2 I3 _ _ (k & p & I6 & I7)]. split; auto. split; auto.
  destruct (b_phase b) eqn:Ph; (split; [|intros K; apply I3 in K; try discriminate; auto]).
  - exists 0%nat, 0%nat. rewrite I7. split; [reflexivity|lia].
  - exists k, p. split; auto. lia.
  - exists k, p. tauto.
  - exists k, p. split; auto. lia.
Qed.
Print Assumptions C79_rounds.

(** A second start ends the program; a new name after the start is a data race, a
    known one is ignored. *)
Theorem C79_after_start : forall es b, unfold_events es new_broadcaster = Runs b -> In Start es ->
  unfold_events (es ++ [Start]) new_broadcaster = Terminated /\
  forall n t, unfold_events (es ++ [Add n t]) new_broadcaster =
    if existsb (fun e => match e with Add n' _ => n' =? n | _ => false end) es then Runs b else DataRace.
Proof.
  intros es b H HS. pose proof (runs_sound es b H) as [I1 _ I3 _ _ _]. rewrite !unfold_app, H. cbn.
  assert (P : b_phase b <> Unstarted) by (rewrite I3; tauto).
  split; [unfold start_thread; destruct (b_phase b); congruence|].
  intros n t. rewrite unfold_app, H. cbn. unfold add_frame.
  assert (Q : present n (b_frames b) = existsb (fun e => match e with Add n' _ => n' =? n | _ => false end) es).
  { apply eq_true_iff_eq. rewrite present_In, in_map_iff, existsb_exists. split.
    - intros ([n' t'] & <- & K). apply I1 in K as (u & v & -> & _). exists (Add n' t'). split; [apply in_app_iff; right; now left|apply String.eqb_refl].
    - intros (e & K & L). destruct e as [n' t'| | | |]; try discriminate. apply String.eqb_eq in L. subst n'.
      apply added_first in K as [t0 K]. apply I1 in K. exists (n, t0). auto. }
  rewrite <- Q. destruct (present n (b_frames b)); auto. destruct (b_phase b); congruence.
Qed.
Print Assumptions C79_after_start.

(** Steps the thread still makes once it has been told to stop. *)
Definition to_go (b : broadcaster) : nat :=
  match b_phase b with Waiting => 1 | Sending rest => length rest + 2 | _ => 0 end.

Definition to_send (b : broadcaster) : nat := match b_phase b with Sending rest => length rest | _ => 0 end.

Lemma to_go_step b : (b_flag b = true \/ b_ok b = false) -> b_phase b <> Unstarted ->
  to_go (thread_step b) = pred (to_go b) /\ b_phase (thread_step b) <> Unstarted /\
  (length (b_sent (thread_step b)) + to_send (thread_step b) <= length (b_sent b) + to_send b)%nat.
Proof.
  intros D P. unfold to_go, to_send, thread_step. destruct (b_phase b) as [| |[|f rest]|] eqn:Ph; cbn; rewrite ?Ph; try (split; [lia|split; [discriminate|cbn; lia]]).
  - congruence.
  - assert (b_ok b && negb (b_flag b) = false) as -> by (destruct D as [-> | ->]; auto using andb_false_r).
    split; [lia|]. split; [discriminate|lia].
  - split; [lia|]. split; [discriminate|]. rewrite app_length. cbn. lia.
Qed.

Lemma stopped es : forall b b', (b_flag b = true \/ b_ok b = false) -> b_phase b <> Unstarted ->
  unfold_events es b = Runs b' ->
  b_phase b' <> Unstarted /\ b_frames b' = b_frames b /\
  to_go b' = (to_go b - count_occ (fun x y : bool => bool_dec x y) (map (fun e => match e with Step => true | _ => false end) es) true)%nat /\
  (length (b_sent b') + to_send b' <= length (b_sent b) + to_send b)%nat.
Proof.
  induction es as [|e es IH]; intros b b' D P H.
  - injection H as <-. cbn. split; auto. split; auto. split; lia.
  - cbn in H. destruct (happen e b) as [a| |] eqn:A; try discriminate.
    assert (K : (b_flag a = true \/ b_ok a = false) /\ b_phase a <> Unstarted /\ b_frames a = b_frames b /\
      to_go a = (to_go b - match e with Step => 1 | _ => 0 end)%nat /\ (length (b_sent a) + to_send a <= length (b_sent b) + to_send b)%nat).
    { destruct e; cbn in A.
      - unfold add_frame in A. destruct (present name (b_frames b)); [injection A as <-; repeat split; auto; lia|].
        destruct (b_phase b); congruence.
      - unfold start_thread in A. destruct (b_phase b); congruence.
      - injection A as <-. unfold to_go, to_send; cbn. repeat split; auto; lia.
      - injection A as <-. unfold to_go, to_send; cbn. repeat split; auto; lia.
      - injection A as <-. destruct (to_go_step b D P) as (T1 & T2 & T3).
        assert (F : b_frames (thread_step b) = b_frames b /\ b_flag (thread_step b) = b_flag b /\ b_ok (thread_step b) = b_ok b).
        { unfold thread_step. destruct (b_phase b) as [| |[|f rest]|]; auto. }
        destruct F as (-> & -> & ->). repeat split; auto. lia. }
    destruct K as (K1 & K2 & K3 & K4 & K5). destruct (IH a b' K1 K2 H) as (L1 & L2 & L3 & L4).
    split; auto. split; [congruence|]. split; [|lia]. rewrite L3, K4. cbn [map]. destruct e; cbn [count_occ];
      try (destruct (bool_dec _ true) as [X|X]; [discriminate X|lia]).
    destruct (bool_dec true true) as [X|X]; [lia|congruence].
Qed.

(** Destroying a broadcaster that was never started ends the program. One that
    was started is destroyed at once only if it was told to stop or ROS is down;
    then the thread returns after the rest of its round, whatever happens
    meanwhile. *)
Theorem C79_destroy : forall es b, unfold_events es new_broadcaster = Runs b ->
  (destroy b = Dies <-> ~ In Start es) /\
  (~ In Shutdown es -> ~ In RosDown es -> destroy b <> Ends) /\
  (In Start es -> In Shutdown es \/ In RosDown es -> forall es' b', unfold_events es' b = Runs b' ->
     (length (b_sent b') <= length (b_sent b) + length (b_frames b))%nat /\
     (length (b_frames b) + 2 <= count_occ (fun x y : bool => bool_dec x y) (map (fun e => match e with Step => true | _ => false end) es') true ->
      destroy b' = Ends)%nat).
Proof.
  intros es b H. pose proof (runs_sound es b H) as [I1 I2 I3 I4 I5 (k & p & I6 & I7)].
  split; [rewrite <- I3; unfold destroy; destruct (b_phase b); split; congruence|]. split.
  - assert (Q : ~ In Shutdown es -> ~ In RosDown es -> b_phase b <> Returned).
    { clear - H. revert b H. induction es as [|e es IH] using rev_ind; intros b H N1 N2; [injection H as <-; discriminate|].
      rewrite in_app_iff in N1, N2. rewrite unfold_app in H. destruct (unfold_events es new_broadcaster) as [a| |] eqn:A; try discriminate.
      specialize (IH a eq_refl ltac:(tauto) ltac:(tauto)). destruct (runs_sound es a A) as [_ _ _ J4 J5 _]. cbn in H.
      destruct e; cbn in H.
      - unfold add_frame in H. destruct (present name (b_frames a)); [injection H as <-; auto|].
        destruct (b_phase a); try discriminate. injection H as <-. discriminate.
      - unfold start_thread in H. destruct (b_phase a); try discriminate. injection H as <-. discriminate.
      - cbn in N1. tauto.
      - cbn in N2. tauto.
      - injection H as <-. unfold thread_step. destruct (b_phase a) as [| |[|f rest]|] eqn:Ph; cbn; rewrite ?Ph; try discriminate; auto.
        assert (b_flag a = false) as -> by (destruct (b_flag a); auto; exfalso; apply N1; left; now apply J4).
        assert (b_ok a = true) as -> by (destruct (b_ok a); auto; exfalso; apply N2; left; now apply J5). discriminate. }
    intros N1 N2 K. apply (Q N1 N2). unfold destroy in K. destruct (b_phase b); congruence.
  - intros HS D es' b' H'. assert (D' : b_flag b = true \/ b_ok b = false) by (rewrite I4, I5; exact D).
    assert (P : b_phase b <> Unstarted) by (rewrite I3; tauto).
    destruct (stopped es' b b' D' P H') as (L1 & L2 & L3 & L4).
    assert (B : (to_go b <= length (b_frames b) + 2)%nat /\ (to_send b <= length (b_frames b))%nat).
    { unfold to_go, to_send. destruct (b_phase b) as [| |rest|]; cbn; try (split; lia).
      destruct I7 as [I7 _]. assert (length rest <= length (b_frames b))%nat by (rewrite <- I7, app_length; lia). lia. }
    split; [lia|]. intros C. unfold destroy. unfold to_go in L3 at 1. destruct (b_phase b') as [| |rest|]; auto; try congruence; exfalso; lia.
Qed.
Print Assumptions C79_destroy.

(** The frames of the demo come in the order of their names; the thread is stopped
    in its second round, after the first frame, and sends the round to its end. *)
Example C79_case :
  let es := (demo_frames ++ repeat Step 8 ++ [Step; Shutdown])%list in
  match unfold_events es new_broadcaster with
  | Runs b => map fst (b_frames b) = ["base_link_4x4"; "base_link_5x5"; "base_link_5x5_2_5x2_5_offset"; "base_link_5x5_3x3_centre"; "base_link_5x5_3x3_offset"] /\
      map (fun f => t_origin (snd f)) (b_frames b) = [(1, -3#1, 0); (1, 1, 0); (-97#10, 24#10, 0); (-35#10, -35#10, 0); (-37#10, 24#10, 0)]%Q /\
      b_sent b = rounds (b_frames b) 1 1 /\ destroy b = Waits /\
      match unfold_events (repeat Step 7) b with
      | Runs b' => b_sent b' = rounds (b_frames b) 2 0 /\ destroy b' = Ends
      | _ => False end
  | _ => False end /\
  unfold_events (es ++ [Start]) new_broadcaster = Terminated /\
  (let t := Transform (9, 9, 9)%Q (0, 0, 0, 1)%Q in
   unfold_events (es ++ [Add "base_link" t]) new_broadcaster = DataRace /\
   unfold_events (es ++ [Add "base_link_4x4" t]) new_broadcaster = unfold_events es new_broadcaster) /\
  destroy new_broadcaster = Dies.
Proof. vm_compute. repeat split; reflexivity. Qed.
