(** Lines below sections that are kept: where they stand in a diff and in a text. *)
From Coq Require Import String Ascii List Bool Arith.
From Verif Require Import Base RunningM RunSpec.
Import ListNotations.
Open Scope string_scope.
Open Scope list_scope.

(** [d'] is the diff of the lines below the kept sections [p] of the diff [d]. *)
Inductive Below : list string -> list item -> list item -> Prop :=
| below_here : forall d, Below [] d d
| below_section : forall h p d d1 d', In (It h (Some d1) ISame) d -> Below p d1 d' -> Below (h :: p) d d'.

(** The text has a part with the headers [p], each two blanks deeper than the one before,
    and what stands below the last one satisfies [P]. *)
Fixpoint Within (p : list string) (P : list string -> Prop) (ls : list string) : Prop :=
  match p with
  | [] => P ls
  | h :: r => exists a sub b, ls = a ++ (h :: map (fun t => ("  " ++ t)%string) sub) ++ b /\ Within r P sub
  end.

(** No word begins with a plus or minus sign. *)
Definition is_sign (c : ascii) : bool := Ascii.eqb c "-" || Ascii.eqb c "+".
Definition unsigned (k : string) : Prop :=
  forall a c r, k = (a ++ String c r)%string -> (a = "" \/ exists b w, a = (b ++ String w "")%string /\ is_ws w = true) -> is_sign c = false.

(** Lines that are not empty, do not end in a blank and have no word that begins with a
    sign, at every level. *)
Inductive Fair : item -> Prop :=
| fair : forall k v i, k <> "" -> rstrip k = k -> unsigned k -> (forall l, v = Some l -> Forall Fair l) -> Fair (It k v i).

(** A section header that no command overwrites. *)
Definition Kept (h : string) : Prop :=
  starts "no " h = false /\ lstrip h = h /\ forall ps, In ps overwritable_commands -> re_match ps (h ++ String (ascii_of_nat 10) "") = None.
