(** Property C57: which file LoadImageBundle reads. *)
From Coq Require Import ZArith QArith String List Bool.
From Verif Require Import Base Mat GridMapMath CostMap Converter Bundles Samples PropImage PropBundle PropRos.
Import ListNotations.

(** What comes of reading the file [f], whatever it was asked for under. *)
Definition reads {E : Env} {C : Cv} (files : list (string * bundle)) (f : string) (r : res (cmap * msg)) : Prop :=
  match aget files f with
  | Some b => r = load_image_bundle [(f, b)] [] f
  | None => r = Throw BadFile
  end.

(** An existing file is read even if its name is a resource name too; only otherwise
    the registered files are searched, and the first that contains both parts is read. *)
Theorem C57_load : forall (E : Env) (C : Cv) files plugins name,
  ((exists b, aget files name = Some b) -> reads files name (load_image_bundle files plugins name)) /\
  (aget files name = None -> slash_free name -> load_image_bundle files plugins name = Throw InvalidArgument) /\
  (aget files name = None -> forall package rest, slash_free package -> name = (package ++ "/" ++ rest)%string ->
     (forall pre f post, plugins = pre ++ f :: post -> offered package rest f -> (forall x, In x pre -> ~ offered package rest x) ->
        reads files f (load_image_bundle files plugins name)) /\
     ((forall x, In x plugins -> ~ offered package rest x) -> load_image_bundle files plugins name = Throw RuntimeError)).
Proof.
  intros E C files plugins name. destruct (C57_resolve plugins name) as (R1 & R2 & _).
  assert (ONE : forall f b, load_image_bundle [(f, b)] [] f =
    match fromImageBundle (Some b) (new_map []) with
    | Flt t => Fault t | Exn e _ => Throw e | Ret _ m => rbind (toMessage m) (fun g => Ok (m, g)) end).
  { intros f b. unfold load_image_bundle, amem. cbn [aget]. rewrite String.eqb_refl. cbn [rbind aget]. now rewrite String.eqb_refl. }
  split; [|split].
  - intros [b H]. unfold reads. rewrite H, ONE. unfold load_image_bundle, amem. rewrite H. cbn [rbind]. now rewrite H.
  - intros H S. unfold load_image_bundle, amem. rewrite H, (R1 S). reflexivity.
  - intros H p r SF Q. destruct (R2 p r SF Q) as [(pre & f & post & A & B & N & D)|[A B]].
    + split.
      * intros pre' f' post' A' B' N'.
        assert (f' = f) as ->.
        { clear - A B N A' B' N'. subst plugins. revert pre' A' N'. induction pre as [|x pre IH]; intros [|y pre'] A' N'; cbn in A'.
          - congruence.
          - injection A' as -> _. exfalso. apply (N' y); [now left|exact B].
          - injection A' as -> _. exfalso. apply (N f'); [now left|exact B'].
          - injection A' as _ A'. apply (IH (fun z Hz => N z (or_intror Hz)) pre' A'). intros z Hz. apply N'. now right. }
        unfold reads, load_image_bundle at 1, amem. unfold load_image_bundle at 2. unfold amem. rewrite H, D. cbn [rbind].
        destruct (aget files f) as [b|]; [|reflexivity]. rewrite ONE. reflexivity.
      * intros X. exfalso. apply (X f); [|exact B]. rewrite A. apply in_elt.
    + split.
      * intros pre f post A' B' _. exfalso. apply (A f); [|exact B']. rewrite A'. apply in_elt.
      * intros _. unfold load_image_bundle, amem. rewrite H, B. reflexivity.
Qed.
Print Assumptions C57_load.

(** Two bundles without layers: the file in the working directory goes before the
    registered one of the same name. *)
Definition framed (f : string) : bundle :=
  Bundle (Yaml (Some f) (Some 0%Q) (Some 0%Q) (Some 1%Q) (Some 2%Z) (Some 2%Z) []) [].

Example C57_load_case :
  let read files := match load_image_bundle (E := binary64 BWrap) (C := opencv true) files ["/opt/maps/x.yaml"%string] "maps/x.yaml" with
                    | Ok (m, g) => Ok (frame m) | Throw e => Throw e | Fault t => Fault t end in
  read [("/opt/maps/x.yaml"%string, framed "far"); ("maps/x.yaml"%string, framed "near")] = Ok "near"%string /\
  read [("/opt/maps/x.yaml"%string, framed "far")] = Ok "far"%string /\ read [] = Throw BadFile.
Proof. conj_vm. Qed.
