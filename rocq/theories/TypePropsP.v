(** Example types for C79. *)
From Coq Require Import String Ascii List Bool.
From Verif Require Import Base BaseP XmlM ConfigM CompileM CompileSpec CompileP CompilePropsP TypeM TypeSpec TypeP.
Import ListNotations.
Open Scope string_scope.
Open Scope list_scope.

Definition ty_ids : iddeps := identity_deps "u" [ex_t; ex_u] [].
Definition ty_pre : list (string * string) := module_prefixes [ex_t; ex_u] [].
Definition ty_I (m : mstmt) (b : string) : list string := match identityref_values ty_ids ty_pre m b with Ok l => l | Err _ => [] end.
Definition ty_plain (a : string) : ytype := YType a false None [] None None [] ex_u.
Definition ty_color : ytype := YType "enumeration" true None ["red"; "blue"; "dark green"] None None [] ex_u.
(** typedef color { type enumeration {...} }, a union of it with boolean, an identityref and a string *)
Definition ty_ref : ytype := YType "color" false (Some (Some ty_color)) [] None None [] ex_u.
Definition ty_kind : ytype := YType "identityref" true None [] (Some "x:animal") None [] ex_u.
Definition ty_all : ytype := YType "union" true None [] None None [ty_ref; ty_plain "boolean"; ty_kind; ty_plain "string"] ex_u.
(** A type that keeps two of the colors *)
Definition ty_some : ytype := YType "color" true (Some (Some ty_color)) ["red"; "blue"] None None [] ex_u.
Definition ty_bar : ytype := YType "enumeration" true None ["a|b"; "c"] None None [] ex_u.

Lemma ty_identities : forall m b, identityref_values ty_ids ty_pre m b = Ok (ty_I m b).
Proof.
  intros m b. unfold ty_I. assert (E : exists l, identityref_values ty_ids ty_pre m b = Ok l).
  { unfold identityref_values. destruct (match str_split ":" b with p :: n :: _ => _ | _ => _ end) as [k |]; [| eexists; reflexivity].
    assert (A : forall l, assoc String.eqb k ty_ids = Some l -> exists r, mapM (fun v => match str_split ":" v with
                     | mn :: n :: _ => match assoc String.eqb mn ty_pre with Some p => Ok (p ++ ":" ++ n)%string | None => Err KeyError end
                     | _ => Err IndexError end) l = Ok r).
    { intros l H. assert (F : Forall (fun kv => exists r, mapM (fun v => match str_split ":" v with
                     | mn :: n :: _ => match assoc String.eqb mn ty_pre with Some p => Ok (p ++ ":" ++ n)%string | None => Err KeyError end
                     | _ => Err IndexError end) (snd kv) = Ok r) ty_ids).
      { let v := eval vm_compute in ty_ids in change ty_ids with v. repeat (constructor; [eexists; vm_compute; reflexivity |]). constructor. }
      induction F as [| [k' l'] r' (x & X) F IH]; [discriminate |]. cbn [assoc] in H. destruct (String.eqb k k'); [injection H as <-; exists x; exact X | apply IH; exact H]. }
    destruct (assoc String.eqb k ty_ids) as [l |]; [apply A; reflexivity | eexists; reflexivity]. }
  destruct E as (l & ->). reflexivity.
Qed.

Lemma ty_plain_ok : forall a, Typed (Unrestricted ty_I) (ty_plain a).
Proof. intro a. apply ty_builtin; [intros t [] |]. intros a' td en b p ms m E. discriminate. Qed.
Lemma ty_color_ok : Typed (Unrestricted ty_I) ty_color.
Proof. apply ty_builtin; [intros t [] |]. intros a' td en b p ms m E. discriminate. Qed.
Lemma ty_all_ok : Typed (Unrestricted ty_I) ty_all.
Proof.
  apply ty_builtin; [| intros a' td en b p ms m E; discriminate]. intros t [<- | [<- | [<- | [<- | []]]]]; try apply ty_plain_ok.
  - apply ty_typedef; [simpl; intuition discriminate | exact ty_color_ok | reflexivity |]. intros a' td en b p ms m E. discriminate.
  - apply ty_builtin; [intros t [] |]. intros a' td en b p ms m E. discriminate.
Qed.
Lemma ty_all_plain : forall v, Admits ty_I ty_all v -> Plain v.
Proof.
  intros v A. inversion A as [| | d en b p ms m t x T X | |]; subst.
  destruct T as [<- | [<- | [<- | [<- | []]]]]; inversion X; subst;
    repeat match goal with
           | H : Admits _ ty_color _ |- _ => inversion H; subst; clear H
           end;
    repeat match goal with
             | H : In _ (ty_I _ _) |- _ => vm_compute in H
             | H : In _ _ |- _ => simpl in H
             | H : _ \/ _ |- _ => destruct H
             end; subst; try contradiction; (split; [discriminate | simpl; repeat split; discriminate]).
Qed.
