(** Specification of details of C25, C46, C67, C68 and C72. *)
From Coq Require Import String Ascii List Bool.
From Verif Require Import Base XmlM CalcM DataSpec CompareSpec HeapM TagM DepictM.
Import ListNotations.
Open Scope string_scope.
Open Scope list_scope.

(** The parameters of edit-config in the order in which they can be given by position *)
Definition edit_signature : list string := ["config"; "format"; "target"; "default_operation"; "test_option"; "error_option"].

(** What a comparison says about the data of two configs *)
Definition Says (op : comparison_op) (s : snode) (x y : xml) : Prop :=
  match op with
  | CmpLe => Contained s x y | CmpLt => Contained s x y /\ ~ Contained s y x
  | CmpGe => Contained s y x | CmpGt => Contained s y x /\ ~ Contained s x y
  | CmpEq => SameData s x y | CmpNe => ~ SameData s x y
  end.

(** The attributes of schema nodes that a diff of models shows *)
Definition shown_attrs : list string :=
  ["type"; "access"; "mandatory"; "presence"; "values"; "key"; "is_key"; "prefix"; "datatype"; "if-feature"; "ordered-by"; "default"].

(** A path that starts at the top, and not with two slashes *)
Definition Absolute (p : string) : Prop := exists c r, p = String "/" (String c r) /\ c <> "/"%char.

(** The substatement [e] is an annotation of tailf and gives the attribute [k]. *)
Definition Annotates (ns : list (string * string)) (e : kword * option string) (k : string) : Prop :=
  exists m w u, fst e = KwExt m w /\ contains "tailf" m = true /\ assoc String.eqb m ns = Some u /\ k = ("{" ++ u ++ "}" ++ w)%string.

(** The statements of RFC 7950 that define data *)
Definition DataNode (t : ystmt) : Prop :=
  exists k, y_kw (yi t) = Kw k /\ In k ["container"; "leaf"; "leaf-list"; "list"; "choice"; "anyxml"; "anydata"; "uses"; "augment"].
