(** C99: printing again. *)
From Coq Require Import String Ascii List Bool Arith.
From Verif Require Import Base XmlM TagM XPathM PrintM PrintPropsP WidthM WidthSpec WidthP WidthPropsP.
Import ListNotations.
Open Scope string_scope.
Open Scope list_scope.

(** However often a model is printed, the text is that of its tree at that moment, as long as
    no name changes: datatypes and features may. [nm] and [tail] are the texts of a model or
    those of a comparison. *)
Theorem C99_fresh_partial : forall nm tail l, (forall x y, In x l -> In y l -> SameNames nm x y) ->
  prints nm tail [] l = map (emit_tree nm tail) l.
Proof. exact prints_fresh. Qed.
Print Assumptions C99_fresh_partial.

(** A tree that is not changed gives the same text every time, for models and comparisons. *)
Theorem C99_again : forall m m1 m2 t n,
  prints (name_str m) model_tail [] (repeat t n) = repeat (print_model m t) n /\
  prints (diff_name m1 m2) diff_tail [] (repeat t n) = repeat (print_diff m1 m2 t) n.
Proof. intros m m1 m2 t n. split; apply prints_again. Qed.
Print Assumptions C99_again.

Example C99_fresh_case : (forall x y, In x [w_one; w_other] -> In y [w_one; w_other] -> SameNames (name_str pr_m) x y) /\
  (exists a b, prints (name_str pr_m) model_tail [] [w_one; w_other] = [Ok a; Ok b] /\ a <> b) /\
  (exists a, prints (name_str pr_m) model_tail [] (repeat w_two 2) = [Ok a; Ok a]).
Proof.
  split.
  - intros x y X Y. assert (S : forall d e, SameNames (name_str pr_m) (w_tree [w_leaf "a" d]) (w_tree [w_leaf "a" e])).
    { intros d e. constructor; [reflexivity |]. intros [| [| i]] a b A B; try discriminate. injection A as <-. injection B as <-.
      constructor; [reflexivity |]. intros [| [| i]] a b A B; try discriminate. injection A as <-. injection B as <-.
      constructor; [reflexivity |]. intros [| i] a b A; discriminate. }
    destruct X as [<- | [<- | []]], Y as [<- | [<- | []]]; apply S.
  - split; [do 2 eexists; split; [vm_compute; reflexivity | discriminate] | eexists; vm_compute; reflexivity].
Qed.

(** After a longer name has been added the old width is used: the type sticks to the name. *)
Theorem C99_stale_refuted : exists m t t' a b c nl,
  prints (name_str m) model_tail [] [t; t'] = [Ok a; Ok (b ++ nl ++ "       +--rw much-longer?string")%string] /\
  print_model m t' = Ok (c ++ nl ++ "       +--rw much-longer?   string")%string.
Proof.
  exists pr_m, w_one, w_two.
  exists (match print_model pr_m w_one with Ok s => s | Err _ => "" end), (match print_model pr_m w_one with Ok s => s | Err _ => "" end),
    (String.concat (String newline "") ["module: m"; "    +--rw top"; "       +--rw a?             string"]), (String newline "").
  split; vm_compute; reflexivity.
Qed.
Print Assumptions C99_stale_refuted.

(** Whatever happens to the tree, the width used at a place is exactly that of the parent as it
    was when it was first asked for without an error. It raises only if it always has. *)
Theorem C99_width : forall nm l i p x, nth_error l i = Some (p, x) ->
  match nth_error (width_run nm l []) i with
  | Some (Ok w) => exists j y, j <= i /\ nth_error l j = Some (p, y) /\ IsWidth nm y w /\
      (forall k z, k < j -> nth_error l k = Some (p, z) -> Raises nm z)
  | Some (Err _) => forall k z, k <= i -> nth_error l k = Some (p, z) -> Raises nm z
  | None => False
  end.
Proof. exact width_used. Qed.
Print Assumptions C99_width.

Example C99_width_case : forall top, (top = fun t => nth 0 (xkids t) t) ->
  width_run (name_str pr_m) [([0], top w_one); ([0], top w_two); ([1], top w_two)] [] = [Ok 9; Ok 9; Ok 18].
Proof. intros top ->. vm_compute. reflexivity. Qed.
