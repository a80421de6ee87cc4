(** Specification for C91: which steps of a run come to be done, and in what world. *)
From Verif Require Import Base.Tactics Bin.ExecModel Bin.ExecSpec.
Local Open Scope list_scope.

Section Reaches.
  Context {W E C M : Type} (severity_of : C -> severity) (act : step M -> W -> W * result E C).
  (** [reaches x w s w1]: the run of [x] from [w] comes to the step [s], in the world [w1]: all steps before it have been done
      and none of them failed or reported an error. *)
  Definition reaches (x : executor M) (w : W) (s : step M) (w1 : W) : Prop :=
    exists before after codes, steps x = before ++ s :: after /\
      runs severity_of act before w before w1 (Ok codes) /\ ~ has_error severity_of codes.
End Reaches.

(** The executors of `hemtt check`, `dev` (and `launch`), `build` and `release`, with any flags and settings; with whether they
    convert configs and whether they write. *)
Inductive command : executor module -> bool -> bool -> Prop :=
| c_check : command check_command true false
| c_dev rapify no_rap force_binarize binarize : command (dev_command rapify no_rap force_binarize binarize) (rapify && negb no_rap) true
| c_build no_rap no_bin : command (build_command no_rap no_bin) (negb no_rap) true
| c_release no_rap no_bin no_sign no_archive sign archive :
    command (release_command no_rap no_bin no_sign no_archive sign archive) (negb no_rap) true.
