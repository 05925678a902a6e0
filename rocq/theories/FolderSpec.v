(** What is claimed of the folder of YANG files. *)
From Coq Require Import String List.
From Verif Require Import Base FolderM.
Import ListNotations.

(** No file was removed and no module requested in this part of the trace. *)
Definition Untouched (tr : list effect) : Prop :=
  forall e, In e tr -> match e with Remove _ | Ask _ => False | _ => True end.

(** The files of the last finished download, for capabilities [c], are all there. *)
Definition Complete (c : string) (tr : list effect) : Prop :=
  exists t1 t2, tr = t1 ++ Joined c :: t2 /\ Untouched t2.

(** A walk names exactly the files of the folder. *)
Definition Walks (walk : list string) (fo : folder) : Prop := forall f, In f walk <-> In f (map fst fo).

(** Every scan of the history walks the folder as it is then, and nothing else writes
    the file of capabilities. *)
Fixpoint Real (es : list event) (fo : folder) : Prop :=
  match es with
  | [] => True
  | e :: r =>
      match e with
      | EScan s => Walks (sc_walk s) fo
      | EOther f _ => f <> cap_file
      end /\ Real r (act_all (event_effects e fo) fo)
  end.

(** Every scan removes the file of capabilities first, if it is there. *)
Fixpoint CapFirst (es : list event) (fo : folder) : Prop :=
  match es with
  | [] => True
  | e :: r =>
      match e with
      | EScan s => In cap_file (sc_walk s) -> exists w, sc_walk s = cap_file :: w
      | _ => True
      end /\ CapFirst r (act_all (event_effects e fo) fo)
  end.
