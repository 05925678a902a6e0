(** Specification for C98: to which model a root belongs, read off the history of calls. *)
From Coq Require Import String List.
From Verif Require Import Base XmlM DataSpec TagM DeviceM DeviceSpec.
Import ListNotations.
Open Scope string_scope.
Open Scope list_scope.

Definition LoadedName (l : list dcall) (n : string) : Prop := exists m, In (DLoad m) l /\ m_name m = n.

(** A model named [n] was loaded at a time when none named [n'] had been. *)
Definition Earlier (l : list dcall) (n n' : string) : Prop :=
  exists p q, l = p ++ q /\ LoadedName p n /\ ~ LoadedName p n'.

(** [n] has the root [r] as it was loaded last, and of all those that have it was loaded for
    the first time last. *)
Definition Owner (l : list dcall) (r n : string) : Prop :=
  exists m, Current l m /\ m_name m = n /\ IsRoot m r /\
    forall m', Current l m' -> IsRoot m' r -> m_name m' = n \/ Earlier l (m_name m') n.
