(** Property C86: image bundles whose yaml file has any shape. *)
From Coq Require Import ZArith QArith String List Bool Lia.
From Verif Require Import Base Mat CostMap Converter Bundles YamlTree Spec BaseLemmas PropImage PropLoad Samples.
Import ListNotations.
Open Scope Z_scope.

(** ** Specification *)

(** The value of a key, in a document or an entry that is a map. *)
Definition value (n : node) (k : string) (x : node) : Prop := exists l, n = Map l /\ aget l k = Some x.
Definition missing (n : node) (k : string) : Prop := (forall s, n <> Scalar s) /\ forall x, ~ value n k x.
Definition scalar (n : node) (k s : string) : Prop := value n k (Scalar s).

(** The list of layers: the elements of a sequence, or the values of a map under 0,
    1, 2, ...; [None] where such a key is missing. There is none if the
    key "layers" is missing or its value is neither of the two. *)
Inductive entries {X : Scan} (n : node) : list (option node) -> Prop :=
| entries_absent : missing n "layers" -> entries n []
| entries_null : value n "layers" Null -> entries n []
| entries_scalar s : scalar n "layers" s -> entries n []
| entries_seq l : value n "layers" (Seq l) -> entries n (map Some l)
| entries_map l xs : value n "layers" (Map l) -> length xs = length l ->
    (forall k x, nth_error xs k = Some x ->
       match x with
       | Some v => exists pre key post, l = pre ++ (key, v) :: post /\ as_uint key = Some (Z.of_nat k) /\
                     forall e, In e pre -> as_uint (fst e) <> Some (Z.of_nat k)
       | None => forall e, In e l -> as_uint (fst e) <> Some (Z.of_nat k)
       end) -> entries n xs.

(** An entry that names a layer and a file, and one that stops the loading. *)
Inductive entry_ok : option node -> option string * option string -> Prop :=
| entry_names n l f : scalar n "layer_name" l -> scalar n "layer_data" f -> entry_ok (Some n) (Some l, Some f).
Inductive entry_bad : option node -> exn -> Prop :=
| bad_undefined : entry_bad None LogicError
| bad_missing n k : k = "layer_name"%string \/ k = "layer_data"%string -> missing n k -> entry_bad (Some n) LogicError
| bad_scalar s : entry_bad (Some (Scalar s)) BadFile
| bad_type n a b : value n "layer_name" a -> value n "layer_data" b -> (forall s, a <> Scalar s) \/ (forall s, b <> Scalar s) -> entry_bad (Some n) BadFile.

(** The document says what the record [y] says. *)
Inductive says {X : Scan} : doc -> yaml -> Prop :=
| says_all n f r nx ny cx cy r' nx' ny' cx' cy' xs ls :
    scalar n "frame_id" f ->
    scalar n "resolution" r' -> as_float r' = Some r ->
    scalar n "number_of_cells_x" nx' -> as_uint nx' = Some nx ->
    scalar n "number_of_cells_y" ny' -> as_uint ny' = Some ny ->
    scalar n "centre_x" cx' -> as_double cx' = Some cx ->
    scalar n "centre_y" cy' -> as_double cy' = Some cy ->
    entries n xs -> Forall2 entry_ok xs ls ->
    says (Doc n) (Yaml (Some f) (Some cx) (Some cy) (Some r) (Some nx) (Some ny) ls).

(** A value that cannot be converted. *)
Inductive unfit {X : Scan} (n : node) : Prop :=
| unfit_frame x : value n "frame_id" x -> (forall s, x <> Scalar s) -> unfit n
| unfit_resolution x : value n "resolution" x -> (forall s r, x = Scalar s -> as_float s <> Some r) -> unfit n
| unfit_count k x : k = "number_of_cells_x"%string \/ k = "number_of_cells_y"%string -> value n k x ->
    (forall s z, x = Scalar s -> as_uint s <> Some z) -> unfit n
| unfit_centre k x : k = "centre_x"%string \/ k = "centre_y"%string -> value n k x ->
    (forall s q, x = Scalar s -> as_double s <> Some q) -> unfit n.

Definition required (k : string) : Prop :=
  k = "frame_id"%string \/ k = "resolution"%string \/ k = "number_of_cells_x"%string \/ k = "number_of_cells_y"%string \/
  k = "centre_x"%string \/ k = "centre_y"%string.

(** The document is refused with exception e. *)
Inductive refused {X : Scan} : doc -> exn -> Prop :=
| ref_open : refused NoFile BadFile
| ref_syntax : refused Malformed LogicError
| ref_scalar s : refused (Doc (Scalar s)) BadFile
| ref_missing n k : required k -> missing n k -> refused (Doc n) LogicError
| ref_unfit n : (forall k, required k -> exists x, value n k x) -> unfit n -> refused (Doc n) BadFile
| ref_entry n pre x post xs ls e : (forall k, required k -> exists x, value n k x) -> ~ unfit n ->
    entries n xs -> xs = pre ++ x :: post -> Forall2 entry_ok pre ls -> entry_bad x e -> refused (Doc n) e.

(** ** Proofs *)

Lemma child_value k n x : child k n = Ok (Some x) <-> value n k x.
Proof.
  unfold value. destruct n; cbn; split; try discriminate; try (intros (l' & H & K); discriminate).
  - intros H. exists l. split; auto. congruence.
  - intros (l' & H & K). congruence.
Qed.
Lemma child_missing k n : child k n = Ok None <-> missing n k.
Proof.
  unfold missing. split.
  - intros H. split; [intros s ->; discriminate|]. intros x V. apply child_value in V. congruence.
  - intros (S & N). destruct n; cbn; auto; [now destruct (S s)|]. destruct (aget l k) as [x|] eqn:K; auto.
    destruct (N x). exists l. auto.
Qed.
Lemma child_cases k n : (forall s, n <> Scalar s) -> (exists x, value n k x) \/ missing n k.
Proof.
  intros S. destruct (child k n) as [[x|]|e|f] eqn:K.
  - left. exists x. now apply child_value.
  - right. now apply child_missing.
  - destruct n; cbn in K; discriminate || now destruct (S s).
  - destruct n; discriminate.
Qed.
Lemma value_map n k x : value n k x -> forall s, n <> Scalar s.
Proof. intros (l & -> & _) s. discriminate. Qed.
Lemma value_fun n k x y : value n k x -> value n k y -> x = y.
Proof. intros A B. apply child_value in A. apply child_value in B. congruence. Qed.
Lemma missing_not n k x : missing n k -> ~ value n k x.
Proof. intros (_ & M). apply M. Qed.

Lemma check_present n ks : (forall k, In k ks -> exists x, value n k x) -> check_keys ks n = Ok tt.
Proof.
  induction ks as [|k t IH]; intros H; cbn [check_keys]; auto. destruct (H k) as (x & V); [now left|].
  rewrite (proj2 (child_value _ _ _) V). cbn [rbind]. apply IH. intros; apply H. now right.
Qed.
Lemma check_missing n k ks : In k ks -> missing n k -> check_keys ks n = Throw LogicError.
Proof.
  intros I M. induction ks as [|k' t IH]; [easy|]. cbn [check_keys].
  destruct (child_cases k' n (proj1 M)) as [[x V]|N].
  - rewrite (proj2 (child_value _ _ _) V). cbn [rbind]. apply IH. destruct I as [->|I]; auto. now destruct (missing_not _ _ _ M V).
  - rewrite (proj2 (child_missing _ _) N). reflexivity.
Qed.
Lemma required_in k : required k <-> In k required_keys.
Proof. unfold required, required_keys. cbn. intuition. Qed.

(** The loop over the entries. *)
Fixpoint read_all (xs : list (option node)) (acc : list (string * string)) : res (list (string * string)) :=
  match xs with [] => Ok acc | x :: t => rbind (read_layer x acc) (read_all t) end.

Lemma read_layers_all {X : Scan} n xs : forall k acc, (forall j x, nth_error xs j = Some x -> item n (k + j) = x) ->
  read_layers n (length xs) k acc = read_all xs acc.
Proof.
  induction xs as [|x t IH]; intros k acc H; cbn [read_layers read_all length]; auto.
  rewrite <- (H 0%nat x eq_refl) at 1. rewrite Nat.add_0_r. destruct (read_layer _ acc); cbn [rbind]; auto.
  apply IH. intros j y K. rewrite <- (H (S j) y K). f_equal. lia.
Qed.

Lemma item_map {X : Scan} l k x :
  match x with
  | Some v => exists pre key post, l = pre ++ (key, v) :: post /\ as_uint key = Some (Z.of_nat k) /\
                forall e, In e pre -> as_uint (fst e) <> Some (Z.of_nat k)
  | None => forall e, In e l -> as_uint (fst e) <> Some (Z.of_nat k)
  end -> item (Map l) k = x.
Proof.
  unfold item. set (p := fun e : string * node => match as_uint (fst e) with Some z => z =? Z.of_nat k | None => false end).
  assert (PT : forall e, p e = true <-> as_uint (fst e) = Some (Z.of_nat k)).
  { intros e. unfold p. destruct (as_uint (fst e)); [rewrite Z.eqb_eq; split; congruence|split; discriminate]. }
  destruct x as [v|].
  - intros (pre & key & post & -> & K & H). induction pre as [|e pre IH]; cbn [app find].
    + rewrite (proj2 (PT (key, v)) K). reflexivity.
    + destruct (p e) eqn:PE; [apply PT in PE; now destruct (H e (or_introl eq_refl))|]. apply IH. intros; apply H. now right.
  - intros H. destruct (find p l) as [e|] eqn:K; auto. apply find_some in K as (I & K). apply PT in K. now destruct (H e I).
Qed.

Lemma entries_read {X : Scan} n xs : (forall s, n <> Scalar s) -> entries n xs ->
  match (match child "layers" n with Ok x => x | _ => None end) with
  | None => Ok []
  | Some l => read_layers l (node_size l) 0 []
  end = read_all xs [].
Proof.
  intros NS [M|V|s V|l V|l xs' V LN H].
  - rewrite (proj2 (child_missing _ _) M). reflexivity.
  - rewrite (proj2 (child_value _ _ _) V). reflexivity.
  - rewrite (proj2 (child_value _ _ _) V). reflexivity.
  - rewrite (proj2 (child_value _ _ _) V). cbn [node_size]. rewrite <- (map_length Some l). apply read_layers_all.
    intros j x K. rewrite nth_error_map in K. cbn [item plus]. destruct (nth_error l j); cbn in K; congruence.
  - rewrite (proj2 (child_value _ _ _) V). cbn [node_size]. rewrite <- LN. apply read_layers_all.
    intros j x K. cbn [plus]. apply item_map. exact (H j x K).
Qed.

Lemma entries_exist {X : Scan} n : (forall s, n <> Scalar s) -> exists xs, entries n xs.
Proof.
  intros NS. destruct (child_cases "layers" n NS) as [[[|s|l|l] V]|M].
  - exists []. now apply entries_null.
  - exists []. now apply (entries_scalar n s).
  - exists (map Some l). now apply entries_seq.
  - exists (map (item (Map l)) (seq 0 (length l))). apply (entries_map n l); auto.
    + now rewrite map_length, seq_length.
    + intros k x K. rewrite nth_error_map in K. destruct (nth_error (seq 0 (length l)) k) as [j|] eqn:N; [|discriminate].
      assert (j = k). { apply nth_error_nth with (d := O) in N as N2. assert (k < length l)%nat.
        { rewrite <- (seq_length (length l) 0). apply nth_error_Some. congruence. } rewrite seq_nth in N2 by auto. lia. }
      subst j. injection K as <-. cbn [item].
      set (p := fun e : string * node => match as_uint (fst e) with Some z => z =? Z.of_nat k | None => false end).
      assert (PT : forall e, p e = true <-> as_uint (fst e) = Some (Z.of_nat k)).
      { intros e. unfold p. destruct (as_uint (fst e)); [rewrite Z.eqb_eq; split; congruence|split; discriminate]. }
      clear N V. induction l as [|[key v] t IH]; cbn [find].
      * easy.
      * destruct (p (key, v)) eqn:PE.
        -- exists [], key, t. split; auto. split; [now apply (PT (key, v))|easy].
        -- destruct (find p t) as [e|].
           ++ destruct IH as (pre & key' & post & -> & K & H). exists ((key, v) :: pre), key', post. split; auto. split; auto.
              intros e' [<-|I]; auto. intros Z. apply PT in Z. congruence.
           ++ intros e [<-|I]; auto. intros Z. apply PT in Z. congruence.
  - exists []. now apply entries_absent.
Qed.

Lemma read_ok x l f acc : entry_ok x (Some l, Some f) -> read_layer x acc = Ok (map_insert l f acc).
Proof.
  intros K. inversion K as [n l' f' A B]; subst. unfold read_layer. unfold scalar in *.
  rewrite (proj2 (child_value _ _ _) A), (proj2 (child_value _ _ _) B). reflexivity.
Qed.
Lemma read_bad x e acc : entry_bad x e -> read_layer x acc = Throw e.
Proof.
  intros [|n k K M|s|n a b A B H]; unfold read_layer; auto.
  - destruct K as [->| ->].
    + now rewrite (proj2 (child_missing _ _) M).
    + destruct (child_cases "layer_name" n (proj1 M)) as [[x0 V]|N].
      * rewrite (proj2 (child_value _ _ _) V), (proj2 (child_missing _ _) M). reflexivity.
      * now rewrite (proj2 (child_missing _ _) N).
  - rewrite (proj2 (child_value _ _ _) A), (proj2 (child_value _ _ _) B). cbn [rbind]. destruct a; try reflexivity.
    destruct H as [H|H]; [now destruct (H s)|]. destruct b; try reflexivity. now destruct (H s0).
Qed.
Lemma entry_cases x : (exists y, entry_ok x y) \/ exists e, entry_bad x e.
Proof.
  destruct x as [n|]; [|right; exists LogicError; constructor].
  assert (SC : (forall s, n <> Scalar s) \/ exists s, n = Scalar s) by (destruct n; eauto; left; discriminate).
  destruct SC as [NS|(s & ->)]; [|right; exists BadFile; constructor].
  destruct (child_cases "layer_name" n NS) as [[a A]|N]; [|right; exists LogicError; apply (bad_missing n "layer_name"); auto].
  destruct (child_cases "layer_data" n NS) as [[b B]|N]; [|right; exists LogicError; apply (bad_missing n "layer_data"); auto].
  destruct a as [|l| |]; [right; exists BadFile; eapply bad_type; eauto; left; discriminate| |right; exists BadFile; eapply bad_type; eauto; left; discriminate ..].
  destruct b as [|f| |]; [right; exists BadFile; eapply bad_type; eauto; right; discriminate| |right; exists BadFile; eapply bad_type; eauto; right; discriminate ..].
  left. exists (Some l, Some f). now constructor.
Qed.

Lemma all_ok xs ls : Forall2 entry_ok xs ls -> forall acc, read_all xs acc = yaml_layers ls acc.
Proof.
  induction 1 as [|x y xs ls H F IH]; intros acc; cbn [read_all yaml_layers]; auto.
  inversion H; subst. rewrite (read_ok _ _ _ _ H). cbn [rbind]. apply IH.
Qed.
Lemma all_bad pre ls x post e : Forall2 entry_ok pre ls -> entry_bad x e -> forall acc, read_all (pre ++ x :: post) acc = Throw e.
Proof.
  induction 1 as [|y z xs ls H F IH]; intros B acc; cbn [read_all app].
  - now rewrite (read_bad _ _ _ B).
  - inversion H; subst. rewrite (read_ok _ _ _ _ H). cbn [rbind]. now apply IH.
Qed.
Lemma all_cases xs : (exists ls, Forall2 entry_ok xs ls) \/
  exists pre x post ls e, xs = pre ++ x :: post /\ Forall2 entry_ok pre ls /\ entry_bad x e.
Proof.
  induction xs as [|x t [(ls & F)|(pre & y & post & ls & e & -> & F & B)]].
  - left. exists []. constructor.
  - destruct (entry_cases x) as [[y K]|[e K]].
    + left. exists (y :: ls). now constructor.
    + right. exists [], x, t, [], e. auto.
  - destruct (entry_cases x) as [[z K]|[e' K]].
    + right. exists (x :: pre), y, post, (z :: ls), e. split; [reflexivity|]. split; [now constructor|exact B].
    + right. exists [], x, (pre ++ y :: post), [], e'. auto.
Qed.

(** ** C86 *)

(** A document that says something is loaded like the bundles of C55, C56 and C72. *)
Theorem C86_loaded : forall (E : Env) (C : Cv) (X : Scan) d y files m, says d y ->
  complete y /\ fromImageBundle_doc d files m = fromImageBundle (Some (Bundle y files)) m.
Proof.
  intros E C X d y files m H. destruct H as [n f r nx ny cx cy r' nx' ny' cx' cy' xs ls A A1 A2 B1 B2 C1 C2 D1 D2 F1 F2 EN FO].
  split.
  { constructor; cbn; try discriminate. intros e He. clear -FO He. induction FO as [|x y xs ls H F IH]; [easy|].
    destruct He as [<-|He]; auto. inversion H; subst. split; discriminate. }
  pose proof (value_map _ _ _ A) as NS. unfold fromImageBundle_doc, fromImageBundle. cbn [b_yaml b_files y_frame y_cx y_cy y_resn y_nx y_ny y_layers].
  rewrite check_present.
  2:{ intros k Hk. apply required_in in Hk. unfold scalar in *. destruct Hk as [->|[->|[->|[->|[->| ->]]]]]; eauto. }
  unfold scalar in *. rewrite (proj2 (child_value _ _ _) A), (proj2 (child_value _ _ _) A1), (proj2 (child_value _ _ _) B1), (proj2 (child_value _ _ _) C1), (proj2 (child_value _ _ _) D1), (proj2 (child_value _ _ _) F1).
  cbn [as_string as_with]. rewrite A2, B2, C2, D2, F2, (entries_read n xs NS EN), (all_ok xs ls FO). reflexivity.
Qed.
Print Assumptions C86_loaded.

(** A document that is refused leaves the map as it was. *)
Theorem C86_refused : forall (E : Env) (C : Cv) (X : Scan) d e files m, refused d e -> fromImageBundle_doc d files m = Exn e m.
Proof.
  intros E C X d e files m [| |s|n k K M|n P U|n pre x post xs ls e0 P U EN SP FO B]; try reflexivity.
  - unfold fromImageBundle_doc. rewrite (check_missing n k); auto. now apply required_in.
  - unfold fromImageBundle_doc. rewrite check_present by (intros k Hk; apply P; now apply required_in).
    destruct (P "frame_id"%string) as (x1 & V1); [unfold required; tauto|]. destruct (P "resolution"%string) as (x2 & V2); [unfold required; tauto|].
    destruct (P "number_of_cells_x"%string) as (x3 & V3); [unfold required; tauto|]. destruct (P "number_of_cells_y"%string) as (x4 & V4); [unfold required; tauto|].
    destruct (P "centre_x"%string) as (x5 & V5); [unfold required; tauto|]. destruct (P "centre_y"%string) as (x6 & V6); [unfold required; tauto|].
    rewrite (proj2 (child_value _ _ _) V1), (proj2 (child_value _ _ _) V2), (proj2 (child_value _ _ _) V3), (proj2 (child_value _ _ _) V4), (proj2 (child_value _ _ _) V5), (proj2 (child_value _ _ _) V6).
    cbn [as_string as_with]. unfold bind at 1. cbn [lift].
    destruct x1 as [|s1| |]; try reflexivity. unfold bind at 1. cbn [lift].
    destruct x2 as [|s2| |]; try reflexivity. destruct (as_float s2) as [r|] eqn:A2; [|reflexivity]. unfold bind at 1. cbn [lift].
    destruct x3 as [|s3| |]; try reflexivity. destruct (as_uint s3) as [nx|] eqn:A3; [|reflexivity]. unfold bind at 1. cbn [lift].
    destruct x4 as [|s4| |]; try reflexivity. destruct (as_uint s4) as [ny|] eqn:A4; [|reflexivity]. unfold bind at 1. cbn [lift].
    destruct x5 as [|s5| |]; try reflexivity. destruct (as_double s5) as [cx|] eqn:A5; [|reflexivity]. unfold bind at 1. cbn [lift].
    destruct x6 as [|s6| |]; try reflexivity. destruct (as_double s6) as [cy|] eqn:A6; [|reflexivity].
    exfalso. destruct U as [x V N|x V N|k x K V N|k x K V N].
    + apply (N s1). exact (value_fun _ _ _ _ V V1).
    + apply (N s2 r); auto. exact (value_fun _ _ _ _ V V2).
    + destruct K as [->| ->]; [apply (N s3 nx)|apply (N s4 ny)]; auto; eapply value_fun; eauto.
    + destruct K as [->| ->]; [apply (N s5 cx)|apply (N s6 cy)]; auto; eapply value_fun; eauto.
  - destruct (P "frame_id"%string) as (x1 & V1); [unfold required; tauto|]. pose proof (value_map _ _ _ V1) as NS.
    destruct (P "resolution"%string) as (x2 & V2); [unfold required; tauto|].
    destruct (P "number_of_cells_x"%string) as (x3 & V3); [unfold required; tauto|]. destruct (P "number_of_cells_y"%string) as (x4 & V4); [unfold required; tauto|].
    destruct (P "centre_x"%string) as (x5 & V5); [unfold required; tauto|]. destruct (P "centre_y"%string) as (x6 & V6); [unfold required; tauto|].
    unfold fromImageBundle_doc. rewrite check_present by (intros k Hk; apply P; now apply required_in).
    rewrite (proj2 (child_value _ _ _) V1), (proj2 (child_value _ _ _) V2), (proj2 (child_value _ _ _) V3), (proj2 (child_value _ _ _) V4), (proj2 (child_value _ _ _) V5), (proj2 (child_value _ _ _) V6).
    rewrite (entries_read n xs NS EN), SP, (all_bad pre ls x post e0 FO B).
    cbn [as_string as_with]. unfold bind at 1. cbn [lift].
    destruct x1 as [|s1| |]; try (exfalso; apply U; eapply unfit_frame; eauto; discriminate). unfold bind at 1. cbn [lift].
    destruct x2 as [|s2| |]; try (exfalso; apply U; eapply unfit_resolution; eauto; discriminate).
    destruct (as_float s2) as [r|] eqn:A2; [|exfalso; apply U; eapply unfit_resolution; eauto; congruence]. unfold bind at 1. cbn [lift].
    destruct x3 as [|s3| |]; try (exfalso; apply U; eapply (unfit_count n "number_of_cells_x"); eauto; discriminate).
    destruct (as_uint s3) as [nx|] eqn:A3; [|exfalso; apply U; eapply (unfit_count n "number_of_cells_x"); eauto; congruence]. unfold bind at 1. cbn [lift].
    destruct x4 as [|s4| |]; try (exfalso; apply U; eapply (unfit_count n "number_of_cells_y"); eauto; discriminate).
    destruct (as_uint s4) as [ny|] eqn:A4; [|exfalso; apply U; eapply (unfit_count n "number_of_cells_y"); eauto; congruence]. unfold bind at 1. cbn [lift].
    destruct x5 as [|s5| |]; try (exfalso; apply U; eapply (unfit_centre n "centre_x"); eauto; discriminate).
    destruct (as_double s5) as [cx|] eqn:A5; [|exfalso; apply U; eapply (unfit_centre n "centre_x"); eauto; congruence]. unfold bind at 1. cbn [lift].
    destruct x6 as [|s6| |]; try (exfalso; apply U; eapply (unfit_centre n "centre_y"); eauto; discriminate).
    destruct (as_double s6) as [cy|] eqn:A6; [|exfalso; apply U; eapply (unfit_centre n "centre_y"); eauto; congruence]. reflexivity.
Qed.
Print Assumptions C86_refused.

(** There is nothing else. *)
Theorem C86_total : forall (X : Scan) d, (exists y, says d y) \/ exists e, refused d e.
Proof.
  intros X [| |n]; [right; exists BadFile; constructor|right; exists LogicError; constructor|].
  assert (SC : (forall s, n <> Scalar s) \/ exists s, n = Scalar s) by (destruct n; eauto; left; discriminate).
  destruct SC as [NS|(s & ->)]; [|right; exists BadFile; constructor].
  assert (PR : (forall k, required k -> exists x, value n k x) \/ exists k, required k /\ missing n k).
  { destruct (child_cases "frame_id" n NS) as [H1|M]; [|right; exists "frame_id"%string; unfold required; tauto].
    destruct (child_cases "resolution" n NS) as [H2|M]; [|right; exists "resolution"%string; unfold required; tauto].
    destruct (child_cases "number_of_cells_x" n NS) as [H3|M]; [|right; exists "number_of_cells_x"%string; unfold required; tauto].
    destruct (child_cases "number_of_cells_y" n NS) as [H4|M]; [|right; exists "number_of_cells_y"%string; unfold required; tauto].
    destruct (child_cases "centre_x" n NS) as [H5|M]; [|right; exists "centre_x"%string; unfold required; tauto].
    destruct (child_cases "centre_y" n NS) as [H6|M]; [|right; exists "centre_y"%string; unfold required; tauto].
    left. intros k [->|[->|[->|[->|[->| ->]]]]]; auto. }
  destruct PR as [P|(k & K & M)]; [|right; exists LogicError; now apply (ref_missing n k)].
  destruct (P "frame_id"%string) as (x1 & V1); [unfold required; tauto|].
  destruct (P "resolution"%string) as (x2 & V2); [unfold required; tauto|].
  destruct (P "number_of_cells_x"%string) as (x3 & V3); [unfold required; tauto|]. destruct (P "number_of_cells_y"%string) as (x4 & V4); [unfold required; tauto|].
  destruct (P "centre_x"%string) as (x5 & V5); [unfold required; tauto|]. destruct (P "centre_y"%string) as (x6 & V6); [unfold required; tauto|].
  assert (UF : unfit n -> exists e, refused (Doc n) e) by (intros U; exists BadFile; now apply ref_unfit).
  destruct x1 as [|s1| |]; try (right; apply UF; eapply unfit_frame; eauto; discriminate).
  destruct x2 as [|s2| |]; try (right; apply UF; eapply unfit_resolution; eauto; discriminate).
  destruct (as_float s2) as [r|] eqn:A2; [|right; apply UF; eapply unfit_resolution; eauto; congruence].
  destruct x3 as [|s3| |]; try (right; apply UF; eapply (unfit_count n "number_of_cells_x"); eauto; discriminate).
  destruct (as_uint s3) as [nx|] eqn:A3; [|right; apply UF; eapply (unfit_count n "number_of_cells_x"); eauto; congruence].
  destruct x4 as [|s4| |]; try (right; apply UF; eapply (unfit_count n "number_of_cells_y"); eauto; discriminate).
  destruct (as_uint s4) as [ny|] eqn:A4; [|right; apply UF; eapply (unfit_count n "number_of_cells_y"); eauto; congruence].
  destruct x5 as [|s5| |]; try (right; apply UF; eapply (unfit_centre n "centre_x"); eauto; discriminate).
  destruct (as_double s5) as [cx|] eqn:A5; [|right; apply UF; eapply (unfit_centre n "centre_x"); eauto; congruence].
  destruct x6 as [|s6| |]; try (right; apply UF; eapply (unfit_centre n "centre_y"); eauto; discriminate).
  destruct (as_double s6) as [cy|] eqn:A6; [|right; apply UF; eapply (unfit_centre n "centre_y"); eauto; congruence].
  assert (NU : ~ unfit n).
  { intros [x V N|x V N|k x K V N|k x K V N].
    - apply (N s1). exact (value_fun _ _ _ _ V V1).
    - apply (N s2 r); auto. exact (value_fun _ _ _ _ V V2).
    - destruct K as [->| ->]; [apply (N s3 nx)|apply (N s4 ny)]; auto; eapply value_fun; eauto.
    - destruct K as [->| ->]; [apply (N s5 cx)|apply (N s6 cy)]; auto; eapply value_fun; eauto. }
  destruct (entries_exist n NS) as (xs & EN). destruct (all_cases xs) as [(ls & F)|(pre & x & post & ls & e & SP & F & B)].
  - left. eexists. eapply says_all; eauto.
  - right. exists e. eapply ref_entry; eauto.
Qed.
Print Assumptions C86_total.

(** Numbers written with decimal digits. *)
Fixpoint digits (s : string) (z : Z) : option Z :=
  match s with
  | EmptyString => Some z
  | String c t => let d := Z.of_N (Ascii.N_of_ascii c) - 48 in if (0 <=? d) && (d <=? 9) then digits t (10 * z + d) else None
  end.
Definition whole (s : string) : option Z := match s with EmptyString => None | _ => digits s 0 end.
Definition decimal : Scan :=
  {| as_float s := option_map inject_Z (whole s); as_double s := option_map inject_Z (whole s); as_uint := whole |}.

(** A file of three by two cells, with given counts and list of layers. *)
Definition file_with (nx : node) (ls : node) : doc := Doc (Map
  [("frame_id", Scalar "map"); ("resolution", Scalar "1"); ("number_of_cells_x", nx); ("number_of_cells_y", Scalar "2");
   ("centre_x", Scalar "10"); ("centre_y", Scalar "20"); ("layers", ls)])%string.
Definition layer_of (name data : node) : node := Map [("layer_name", name); ("layer_data", data)]%string.
Definition load (d : doc) : out cmap unit := fromImageBundle_doc (E := binary64 BWrap) (C := opencv true) (X := decimal) d [] sample.
Definition loaded_layers (x : out cmap unit) : option (list string) := match x with Ret _ m => Some (layers m) | _ => None end.

(** One layer, given as a sequence or under the key 0; a count in words; a scalar
    instead of the layers, which is ignored; an entry of the wrong type
    before one that lacks its file. *)
Example C86_case :
  says (X := decimal) (file_with (Scalar "3") (Seq [layer_of (Scalar "q") (Scalar "b.png")]))
    (Yaml (Some "map"%string) (Some 10%Q) (Some 20%Q) (Some 1%Q) (Some 3) (Some 2) [(Some "q", Some "b.png")]%string) /\
  loaded_layers (load (file_with (Scalar "3") (Seq [layer_of (Scalar "q") (Scalar "b.png")]))) = Some (layers sample ++ ["q"%string]) /\
  loaded_layers (load (file_with (Scalar "3") (Map [("0"%string, layer_of (Scalar "q") (Scalar "b.png"))]))) = Some (layers sample ++ ["q"%string]) /\
  loaded_layers (load (file_with (Scalar "3") (Scalar "b"))) = Some (layers sample) /\
  refused (X := decimal) (file_with (Scalar "three") (Scalar "b")) BadFile /\
  load (file_with (Scalar "three") (Scalar "b")) = Exn BadFile sample /\
  load (file_with (Scalar "3") (Seq [layer_of (Seq []) (Scalar "b.png"); Map [("layer_name"%string, Scalar "c")]])) = Exn BadFile sample /\
  load (file_with (Scalar "3") (Seq [Map [("layer_name"%string, Scalar "c")]; layer_of (Seq []) (Scalar "b.png")])) = Exn LogicError sample /\
  load (Doc Null) = Exn LogicError sample /\ load (Doc (Scalar "map")) = Exn BadFile sample.
Proof.
  split.
  { eapply (says_all (X := decimal)); try (eexists; split; [reflexivity|reflexivity]); try reflexivity.
    - apply entries_seq. eexists; split; reflexivity.
    - constructor; [|constructor]. constructor; eexists; split; reflexivity. }
  split; [vm_compute; reflexivity|]. split; [vm_compute; reflexivity|]. split; [vm_compute; reflexivity|]. split.
  { apply ref_unfit.
    - intros k [->|[->|[->|[->|[->| ->]]]]]; eexists; eexists; split; reflexivity.
    - eapply (unfit_count (X := decimal) _ "number_of_cells_x"); [now left|eexists; split; reflexivity|].
      intros s z K. injection K as <-. discriminate. }
  conj_vm.
Qed.
