(** * The log probability of a camera and of a group: parameter_set.py 161-168, 218-248; camera.py 291-296 *)
Require Import Reals List Bool String.
From Verif Require Import Num.
Import ListNotations.
Open Scope R_scope.

Section State.
(** The parameters the terms read: all cameras and additional parameters. *)
Context {St : Type}.
(** a function of log_prob, parameter_set.py 218-230 *)
Definition term := St -> num.
(** The attributes log_prob, additional_parameters and (only their number) info_plot_functions
    (parameter_set.py 161-168) *)
Record info := Info { log_prob : list term; additional : list string; plots : nat }.
(** parameter_set.py 165-168 *)
Definition new_info : info := Info [] [] 0.
(** add...Information of a camera (camera.py 515-830): [extra] is a variation that is not a number;
    addCustomoLogProbability (218-230) and clearLogProbability (232-234). *)
Inductive reg :=
| RInfo (only_plot : bool) (t : term) (extra : option string)
| RCustom (t : term) (extra : list string)
| RClear.
(** parameter_set.py 218-230 *)
Definition register (i : info) (r : reg) : info :=
  match r with
  | RInfo true t extra => Info (log_prob i) (additional i) (S (plots i))
  | RInfo false t extra =>
    Info (log_prob i ++ [t]) (additional i ++ match extra with Some n => [n] | None => [] end) (S (plots i))
  | RCustom t extra => Info (log_prob i ++ [t]) (additional i ++ extra) (plots i)
  | RClear => Info [] [] (plots i)
  end.
(** np.sum over a list; numpy may associate differently, which exact addition does not notice (parameter_set.py 240) *)
Definition nsum (l : list num) : num := fold_left nadd l (Fin 0).
(** 236-241 *)
Definition raw_log_probability (i : info) (s : St) : num := nsum (map (fun t => t s) (log_prob i)).
(** 243-248 *)
Definition getLogProbability (i : info) (s : St) : num :=
  let prob := nsum (map (fun t => t s) (log_prob i)) in if nisnan prob then NInf else prob.
(** camera.py 291-296: CameraGroup *)
Definition group_log_probability (g : info) (cams : list info) (s : St) : num :=
  let prob := (nsum (map (fun t => t s) (log_prob g)) + nsum (map (fun t => t s) (flat_map log_prob cams)))%num in
  if nisnan prob then NInf else prob.
End State.
Arguments info : clear implicits.
Arguments reg : clear implicits.
