(** Property theorem about the task of an actor with the default [next] (C65). *)
From Coq Require Import List Bool.
From Verif Require Import Lifecycle Lifecycle_examples Loop Loop_spec.
From Verif Require Import LoopDefault_spec LoopDefault_proofs LoopDefault_examples.
Import ListNotations.

(** ** C65 *)

(** A run of an actor that does not override [next] is a run of the task in which [next] gives
    the signals of the mailbox in the order they were taken in, at last none when no
    reference is left, and never panics. What the mailbox still holds are the signals not given yet. The
    same user code is called with the same results, and the task ends in the same way. *)
Theorem C65_default : forall c es s tr,
  exec (init c) es = Some (s, tr) ->
  exists ms t h got rest,
    run_task ms = Some (t, h) /\ (forall e, In e ms -> e <> DNextPanic) /\
    gaves h = map answer got /\
    accepted tr = signals got ++ rest /\
    ((exists l, got = map Some l) \/ (got = map Some (accepted tr) ++ [None] /\ strong s = 0)) /\
    (rx_open s = true -> queue s = rest) /\
    (exists more, task_marks got h = life_marks tr ++ more) /\
    (ended (ph s) = true -> t_place t = QOver /\ task_marks got h = life_marks tr).
Proof. exact default_next. Qed.
Print Assumptions C65_default.

(** A stop with a message before it and one behind it. *)
Example C65_default_ex : Lifecycle_examples.runs plain ex_stop (fun s tr =>
  ended (ph s) = true /\
  accepted tr = signals stop_got ++ [SMsg (mk_msg 1 false true)] /\
  match run_task stop_moves with
  | Some (t, h) => gaves h = map answer stop_got /\ task_marks stop_got h = life_marks tr /\ t_place t = QOver
  | None => False
  end).
Proof. vm_compute. repeat split. Qed.

(** A kill while [on_panic] runs because of a message of the startup buffer. *)
Example C65_default_kill_ex : Lifecycle_examples.runs plain late_kill (fun s tr =>
  ended (ph s) = true /\
  accepted tr = signals kill_got /\
  match run_task kill_moves with
  | Some (t, h) => gaves h = map answer kill_got /\ task_marks kill_got h = life_marks tr /\
                   In (MPanic (FPanic 1)) (life_marks tr) /\ In MPanicCut (life_marks tr)
  | None => False
  end).
Proof. vm_compute. repeat split; tauto. Qed.

(** No reference is left: a last none. *)
Example C65_default_dead_ex : Lifecycle_examples.runs plain ex_dead (fun s tr =>
  ended (ph s) = true /\ strong s = 0 /\
  dead_got = map Some (accepted tr) ++ [None] /\
  match run_task dead_moves with
  | Some (t, h) => gaves h = map answer dead_got /\ task_marks dead_got h = life_marks tr /\ t_place t = QOver
  | None => False
  end).
Proof. vm_compute. repeat split. Qed.
