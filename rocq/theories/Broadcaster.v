(** cost_map_demos/src/lib/utilities.cpp:40-73, include/cost_map_demos/utilities.hpp:37-51:
    the thread that repeats the transforms of the demos. *)
From Coq Require Import ZArith QArith String List Bool Sorted Lia.
Import ListNotations.
Open Scope string_scope.

(** tf::Transform as handed to add(): origin and rotation, utilities.cpp:52-57. *)
Record transform := Transform { t_origin : Q * Q * Q; t_rotation : Q * Q * Q * Q }.
Definition frames := list (string * transform).

(** Where the thread is: no thread yet; at the condition of the loop (after the
    sleep of line 71); inside the loop of line 67 with the rest still to be sent;
    returned but not joined. *)
Inductive phase := Unstarted | Waiting | Sending (rest : frames) | Returned.

(** utilities.hpp:47-50 plus ros::ok() and what has been handed to
    sendTransform, oldest first. The parent frame is always "map" (line 68), the
    stamp is left out. *)
Record broadcaster := Broadcaster
  { b_frames : frames; b_phase : phase; b_flag : bool; b_ok : bool; b_sent : frames }.

Definition new_broadcaster : broadcaster := Broadcaster [] Unstarted false true [].

(** What can happen, one at a time: calls by the owner, the end of ROS, and one
    step of the thread. *)
Inductive event := Add (name : string) (t : transform) | Start | Shutdown | RosDown | Step.

Inductive result := Runs (b : broadcaster) | Terminated | DataRace.

(** std::map::insert: sorted by name, a name that is present keeps its value. *)
Definition present (n : string) (fs : frames) : bool := existsb (fun f => fst f =? n) fs.

Fixpoint place (n : string) (t : transform) (fs : frames) : frames :=
  match fs with
  | [] => [(n, t)]
  | f :: fs' => match String.compare n (fst f) with Lt => (n, t) :: fs | _ => f :: place n t fs' end
  end.

(** utilities.cpp:52-57. The thread reads the table without synchronisation, so
    a new entry while there is a thread is a data race; looking up an existing
    one is not. *)
Definition add_frame (n : string) (t : transform) (b : broadcaster) : result :=
  if present n (b_frames b) then Runs b
  else match b_phase b with
       | Unstarted => Runs (Broadcaster (place n t (b_frames b)) Unstarted (b_flag b) (b_ok b) (b_sent b))
       | _ => DataRace
       end.

(** utilities.cpp:59-61. Assigning to a std::thread that has not been joined
    terminates the program. *)
Definition start_thread (b : broadcaster) : result :=
  match b_phase b with
  | Unstarted => Runs (Broadcaster (b_frames b) Waiting (b_flag b) (b_ok b) (b_sent b))
  | _ => Terminated
  end.

(** utilities.cpp:63-73 *)
Definition thread_step (b : broadcaster) : broadcaster :=
  match b_phase b with
  | Waiting =>
      Broadcaster (b_frames b) (if b_ok b && negb (b_flag b) then Sending (b_frames b) else Returned) (b_flag b) (b_ok b) (b_sent b)
  | Sending [] => Broadcaster (b_frames b) Waiting (b_flag b) (b_ok b) (b_sent b)
  | Sending (f :: rest) => Broadcaster (b_frames b) (Sending rest) (b_flag b) (b_ok b) (b_sent b ++ [f])%list
  | _ => b
  end.

(** utilities.cpp:48-50 for Shutdown *)
Definition happen (e : event) (b : broadcaster) : result :=
  match e with
  | Add n t => add_frame n t b
  | Start => start_thread b
  | Shutdown => Runs (Broadcaster (b_frames b) (b_phase b) true (b_ok b) (b_sent b))
  | RosDown => Runs (Broadcaster (b_frames b) (b_phase b) (b_flag b) false (b_sent b))
  | Step => Runs (thread_step b)
  end.

Fixpoint unfold_events (es : list event) (b : broadcaster) : result :=
  match es with
  | [] => Runs b
  | e :: es' => match happen e b with Runs b' => unfold_events es' b' | r => r end
  end.

(** The destructor, utilities.cpp:44-46: join() waits for the thread to return;
    without a thread it throws, which in a destructor terminates the program. *)
Inductive destruction := Ends | Waits | Dies.
Definition destroy (b : broadcaster) : destruction :=
  match b_phase b with Unstarted => Dies | Returned => Ends | _ => Waits end.

(** cost_map_demos/src/lib/from_ros_costmaps.cpp:21-28 *)
Definition demo_frames : list event :=
  let upright := (0, 0, 0, 1)%Q in
  [Add "base_link_5x5" (Transform (1, 1, 0)%Q upright);
   Add "base_link_4x4" (Transform (1, -3#1, 0)%Q upright);
   Add "base_link_5x5_3x3_offset" (Transform (-37#10, 24#10, 0)%Q upright);
   Add "base_link_5x5_3x3_centre" (Transform (-35#10, -35#10, 0)%Q upright);
   Add "base_link_5x5_2_5x2_5_offset" (Transform (-97#10, 24#10, 0)%Q upright);
   Start].
