(** A device that is given commands: what a list of commands makes of its config. *)
From Coq Require Import String Ascii List Bool Arith.
From Verif Require Import Base RunningM RunSpec RunNestSpec.
Import ListNotations.
Open Scope string_scope.
Open Scope list_scope.

(** What a device knows of its commands. [evicts c y]: the command [c] makes the other
    line [y] at the same place go, with all below it. [shows c]: the config has [c] as a
    line once the command was given; of a command that begins with "no " this may be so
    or not. *)
Record device := Device { evicts : string -> string -> bool; shows : string -> bool }.

Definition kids (v : option (list item)) : list item := match v with None => [] | Some l => l end.
Definition section (l : list item) : option (list item) := match l with [] => None | _ => Some l end.
(** A command, with the commands below it, is given to a device at a place where it has
    the lines [cfg]. A line it does not have comes last. *)
Fixpoint enter (dv : device) (c : item) (cfg : list item) {struct c} : list item :=
  let '(It k v _) := c in
  let below := fun old => match v with
                          | None => old
                          | Some cs => (fix go (cs : list item) (s : list item) : list item :=
                                          match cs with [] => s | x :: r => go r (enter dv x s) end) cs old
                          end in
  let cfg := filter (fun y => (String.eqb (ikey y) k && shows dv k) || negb (evicts dv k (ikey y))) cfg in
  if negb (shows dv k) then cfg
  else if existsb (fun y => String.eqb (ikey y) k) cfg
  then map (fun y => if String.eqb (ikey y) k then It k (section (below (kids (ival y)))) ISame else y) cfg
  else cfg ++ [It k (section (below [])) ISame].
Definition run (dv : device) (cs cfg : list item) : list item := fold_left (fun s c => enter dv c s) cs cfg.

(** The same lines at every level, each once, in any order *)
Inductive Same : list item -> list item -> Prop :=
| same : forall l1 l2, NoDup (keys l1) -> NoDup (keys l2) -> (forall k, In k (keys l1) <-> In k (keys l2)) ->
    (forall k v1 i1 v2 i2, In (It k v1 i1) l1 -> In (It k v2 i2) l2 ->
       (v1 = None /\ v2 = None) \/ exists w1 w2, v1 = Some w1 /\ v2 = Some w2 /\ Same w1 w2) ->
    Same l1 l2.

(** Lines without a word that begins with a sign. A line may begin with "no "; then
    nothing is below it, and what follows is an ordinary line that does not. *)
Inductive Saying : item -> Prop :=
| saying : forall k v i, unsigned k ->
    (forall x, k = ("no " ++ x)%string -> v = None /\ ordinary_key x = true /\ starts "no " x = false) ->
    (forall l, v = Some l -> Forall Saying l) -> Saying (It k v i).

(** A config the device can have: its lines are shown, and none makes another one go. *)
Inductive Settled (dv : device) : list item -> Prop :=
| settled : forall l, (forall x, In x (keys l) -> shows dv x = true) ->
    (forall x y, In x (keys l) -> In y (keys l) -> x <> y -> evicts dv x y = false) ->
    (forall k v i, In (It k (Some v) i) l -> Settled dv v) -> Settled dv l.

(** The command that takes a line back: "no" and the line, or the beginning of it for
    the lines the code has a short form for; of a line that begins with "no " the rest. *)
Inductive Undoes : string -> string -> Prop :=
| undo_line : forall k, starts "no " k = false -> (forall sc, In sc short_no_commands -> ~ Begins sc ("no " ++ k)) ->
    Undoes ("no " ++ k) k
| undo_short : forall k sc, starts "no " k = false -> In sc short_no_commands -> Begins sc ("no " ++ k) -> Undoes (strip sc) k
| undo_no : forall x, Undoes x ("no " ++ x).

(** The commands made from the lines of a diff, other than those with commands below *)
Inductive Made (d : list item) : string -> Prop :=
| made_new : forall k, In (It k None IPlus) d -> Made d k
| made_gone : forall k v u, In (It k v IMinus) d -> Undoes u k -> Made d u.
Definition Negates (c : string) : Prop := starts "no " c = true.

(** The line [k] is of a kind that the code takes to be overwritten; [e] is what the
    lines of the kind begin with. *)
Definition OfKind (k e : string) : Prop :=
  exists ps m rest, In ps overwritable_commands /\ k = (m ++ rest)%string /\ Match ps m rest /\ e = strip m.

(** At a place where the config is to become [l2] and the diff is [d], the device does
    what the code expects of it. Commands that begin with "no " are given first. *)
Record Obeys (dv : device) (l2 d : list item) : Prop := {
  (** A line that is taken back goes, and no line that stays. What takes a line back is
      not itself removed. It is not shown, unless it is to be there, or it begins with
      "no " and goes with an added line. *)
  ob_goes : forall k v u, In (It k v IMinus) d -> Undoes u k -> evicts dv u k = true;
  ob_stays : forall k v u y, In (It k v IMinus) d -> Undoes u k -> In y (keys l2) -> y <> u ->
    ~ Negates u \/ Negates y \/ (forall v', ~ In (It y v' IPlus) d) -> evicts dv u y = false;
  ob_both : forall k v, In (It k v IMinus) d -> ~ In (It ("no " ++ k) None IMinus) d;
  ob_shown : forall k v u, In (It k v IMinus) d -> Undoes u k -> shows dv u = true ->
    (In (It u None ISame) l2 /\ forall w, ~ In (It u (Some w) ISame) d) \/
    (Negates u /\ exists c, In (It c None IPlus) d /\ ~ Negates c /\ evicts dv c u = true);
  (** A line goes with every command that is the beginning of the one that takes it back,
      and with every extension of the one that configures it again. *)
  ob_with : forall k v u c, In (It k v IMinus) d -> Undoes u k -> Made d c -> Negates c -> Begins c u -> evicts dv c k = true;
  ob_beyond : forall x c, In (It ("no " ++ x) None IMinus) d -> Made d c -> ~ Negates c -> Begins x c -> evicts dv c ("no " ++ x) = true;
  (** A removed line goes when an extension of it is entered, and with a command that
      begins as those of its kind do. *)
  ob_longer : forall k k', In (It k None IMinus) d -> In (It k' None IPlus) d -> Begins k k' -> k <> k' -> evicts dv k' k = true;
  ob_kind : forall c e y v, Made d c -> ~ Negates c -> OfKind c e -> In (It y v IMinus) d -> Begins e y -> c <> y -> evicts dv c y = true;
  (** At most one line of a kind is added. A command that takes a line back and is of
      this kind is before it in the diff, and it does the same to the line. *)
  ob_one : forall k k' e, In (It k None IPlus) d -> In (It k' None IPlus) d -> OfKind k e -> OfKind k' e -> k = k';
  ob_turn : forall x e c, In (It ("no " ++ x) None IMinus) d -> OfKind x e -> Made d c -> ~ Negates c -> c <> x ->
    OfKind c e \/ Begins x c -> OfKind c e /\ In (It c None IPlus) d /\ evicts dv c ("no " ++ x) = true /\
    forall a b, d = a ++ It c None IPlus :: b -> ~ In (It ("no " ++ x) None IMinus) b;
  (** Sections are not of such a kind. *)
  ob_section : forall k l i, In (It k (Some l) i) d -> Kept k /\ forall e, ~ OfKind k e;
  (** No added line is the beginning of another command. *)
  ob_apart : forall k c, In (It k None IPlus) d -> ~ Negates k -> Made d c -> ~ Negates c -> Begins k c -> k <> c ->
    In k coexist_commands \/ In c coexist_commands;
  (** An added line that begins with "no " has no short form, no other command that
      begins with "no " is a beginning of it, and no line of its kind is added. *)
  ob_no_short : forall k sc, In (It k None IPlus) d -> Negates k -> In sc short_no_commands -> ~ Begins sc k;
  ob_no_apart : forall k c, In (It k None IPlus) d -> Negates k -> Made d c -> Negates c -> Begins c k -> c = k;
  ob_no_kind : forall x c e, In (It ("no " ++ x) None IPlus) d -> Made d c -> ~ Negates c -> OfKind c e -> ~ Begins e x }.

(** The places that a diff [d] leading to [l2] has: the top, and below the sections that
    it shows as kept. *)
Inductive Place : list item -> list item -> list item -> list item -> Prop :=
| place_top : forall l2 d, Place l2 d l2 d
| place_below : forall l2 d m w k v w' i, Place l2 d m w -> In (It k v i) m -> In (It k (Some w') ISame) w ->
    Place l2 d (kids v) w'.

(** The device reads the lines of a text as the tree of commands [cs]: lines with an
    exclamation mark only are comments, and indented lines belong to the line above. *)
Definition Reads (ls : list string) (cs : list item) : Prop :=
  ordinary cs = true /\ filter (fun s => negb (String.eqb s "!")) ls = text 2 cs.
