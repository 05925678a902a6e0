(** The model names that a device tells: /repo/src/ncdiff/manager.py:214-216 and 632-658,
    /repo/src/ncdiff/config.py:234-252. No proofs in this file. *)
From Coq Require Import String List.
From Verif Require Import Base XmlM TagM DeviceM LoadableM.
Import ListNotations.
Open Scope string_scope.
Open Scope list_scope.

(** [get_model_name], manager.py:632-658 and config.py:234-252, of the node with the given
    path of tags, [Composer.path], composer.py:98-101: the tags from the one below the top
    element to the node, and the tag alone for the top element. So no path is empty. *)
Definition get_model_name (path : list string) (d : device) : res string * device :=
  match path with
  | [] => (Err IndexError, d)
  | r :: _ => model_name r d
  end.

(** [models_loaded], manager.py:214-216. *)
Definition models_loaded (d : device) : list string := sort (map fst (d_models d)).
