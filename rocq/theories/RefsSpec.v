(** Specification of C88: when two trees say the same. *)
From Coq Require Import String Ascii List Bool Arith.
From Verif Require Import Base XmlM CalcM CacheM TagM TagSpec RefM RefSpec IidSpec RefsM.
Import ListNotations.
Open Scope string_scope.
Open Scope list_scope.

Section Saying.
Variables (T : table) (dt : list string -> datatype).

(** The texts [a] and [b] of two elements with the tags [ts] and with the namespaces [m]
    and [m'] say the same: they refer to one identity of a known module, or denote one
    path of names of known modules, or are values of other types that are the same. *)
Definition SayText (ts : list string) (m m' : nsmap) (a b : option string) : Prop :=
  match dt ts, a, b with
  | DIdentity, Some s, Some s' => exists u n, In u (map e_url T) /\ Refers T m s u n /\ Refers T m' s' u n
  | DInstance, Some s, Some s' =>
      exists l l' d, s = to_s (show_items l) /\ s' = to_s (show_items l') /\
        Denotes T m None l d /\ Denotes T m' None l' d /\ Forall Tame l /\ Forall Tame l' /\
        l <> [] /\ l' <> [] /\ (forall u, In u (urls d) -> In u (map e_url T))
  | _, _, _ => a = b
  end.

(** [x] with the namespaces [ns] says the same as [y] with the namespaces [ns']: same
    elements at the same places, with the same attributes, and texts that say the same. *)
Fixpoint Says (ns ns' : list nat -> nsmap) (p : list nat) (ts : list string) (x y : xml) {struct x} : Prop :=
  match x, y with
  | Elem t tx a ks, Elem t' tx' a' ks' =>
      t = t' /\ a = a' /\ SayText ts (ns p) (ns' p) tx tx' /\
      (fix go (i : nat) (l l' : list xml) : Prop :=
         match l, l' with
         | [], [] => True
         | c :: r, c' :: r' => Says ns ns' (p ++ [i]) (ts ++ [xtag c]) c c' /\ go (S i) r r'
         | _, _ => False
         end) 0 ks ks'
  end.

(** Leafs with references are in modules that the device knows. *)
Definition KnownTags : Prop :=
  forall ts, dt ts = DIdentity \/ dt ts = DInstance -> exists w t, last ts "" = etree w t /\ In w (map e_url T) /\ Name t.
End Saying.
