(** C93: the attributes of deltas. *)
From Coq Require Import String List Bool Arith ZArith Lia.
From Verif Require Import Base XmlM CalcM CalcP NetconfM ConfigM DataSpec DataP DeltaSpec ConfigSpec VocabSpec VocabP ExampleM.
Import ListNotations.
Open Scope string_scope.
Open Scope list_scope.

(** ** C93
    Every attribute of every node of a delta is one of the four of RFC 6241 and RFC 7950,
    is there once, and has a value these allow. Operations are those that the options ask
    for; insert is on entries ordered by the user that are not deleted; value and key go
    with insert="after" on the right type of node. diff_type='minimum-replace' is left
    out. *)
Theorem C93_marks : forall o s a b d, o_type o <> DMinimumReplace -> IsConfig s a -> IsConfig s b ->
  delta_nc s (Delta a b o) = Ok d -> forall p s' n, At s d p s' n -> Marks o s' (xattrs n).
Proof. exact delta_marks. Qed.
Print Assumptions C93_marks.

Definition vo_opts : opts := Opts PCCreate PRMerge PDRemove DMinimum 0.
(** Rule 15 is created after rule 10, the server 1.1.1.1 goes after 8.8.8.8 and n1 is removed. *)
Example C93_case : IsConfig ex_schema ex_a /\ IsConfig ex_schema ex_b /\
  exists d, delta_nc ex_schema (Delta ex_a ex_b vo_opts) = Ok d /\
    (exists p s' n, At ex_schema d p s' n /\ xattrs n = [(nc_operation, "create"); (yang_insert, "after"); (yang_key, "[id='10']")]) /\
    (exists p s' n, At ex_schema d p s' n /\ xattrs n = [(yang_insert, "after"); (yang_value, "8.8.8.8")]) /\
    (exists p s' n, At ex_schema d p s' n /\ xattrs n = [(nc_operation, "remove")]).
Proof.
  split; [repeat split; vm_compute; reflexivity |]. split; [repeat split; vm_compute; reflexivity |]. eexists. split; [vm_compute; reflexivity |].
  assert (D : forall t s cs, schema_child s t = Ok cs -> Defines s t cs) by (intros; apply schema_child_Defines; auto).
  assert (SYS : Defines ex_schema "sys" (nth 0 (skids ex_schema) ex_schema)) by (apply D; vm_compute; reflexivity).
  split; [| split]; do 3 eexists; (split; [eapply at_down; [left; reflexivity | exact SYS | apply id_other; discriminate |] |]).
  - eapply at_down; [do 12 right; left; reflexivity | apply D; vm_compute; reflexivity | apply id_list; [reflexivity | vm_compute] | constructor].
    eapply kt_cons; [left; reflexivity | reflexivity | | constructor]. intros c' [<- | [<- | []]] E; [reflexivity | discriminate].
  - reflexivity.
  - eapply at_down; [do 4 right; left; reflexivity | apply D; vm_compute; reflexivity | apply id_leaflist; reflexivity | constructor].
  - reflexivity.
  - eapply at_down; [do 6 right; left; reflexivity | apply D; vm_compute; reflexivity | apply id_leaflist; reflexivity | constructor].
  - reflexivity.
Qed.

(** With diff_type='minimum-replace' the attribute is [operation] without a namespace,
    which is none of RFC 6241. *)
Theorem C93_refuted : exists o s a b d p s' n, IsConfig s a /\ IsConfig s b /\ delta_nc s (Delta a b o) = Ok d /\ At s d p s' n /\
  xattrs n = [("operation", "replace")] /\ ~ Marks o s' (xattrs n).
Proof.
  exists (Opts PCMerge PRMerge PDDelete DMinimumReplace 0), ex_schema, ex_a, ex_b. do 4 eexists.
  split; [repeat split; vm_compute; reflexivity |]. split; [repeat split; vm_compute; reflexivity |]. split; [vm_compute; reflexivity |].
  split; [eapply at_down; [left; reflexivity | apply schema_child_Defines; vm_compute; reflexivity | apply id_other; discriminate | constructor] |].
  split; [reflexivity |]. intro M. destruct (mk_known _ _ _ M "operation" "replace" (or_introl eq_refl)) as [E | [E | [E | E]]]; discriminate.
Qed.
Print Assumptions C93_refuted.

(** That attribute is all that diff_type='minimum-replace' adds. It comes last, on every
    node at the depth asked for and nowhere else. For all options the rest of the
    attributes is as in C93_marks. *)
Theorem C93_all : forall o s a b d, IsConfig s a -> IsConfig s b -> delta_nc s (Delta a b o) = Ok d ->
  forall p s' n, At s d p s' n ->
  exists A, Marks o s' A /\
    ((o_type o = DMinimumReplace /\ Z.of_nat (length p) = (o_depth o + 1)%Z /\ xattrs n = A ++ [("operation", "replace")]) \/
     (~ (o_type o = DMinimumReplace /\ Z.of_nat (length p) = (o_depth o + 1)%Z) /\ xattrs n = A)).
Proof. exact delta_marks_all. Qed.
Print Assumptions C93_all.

(** At depth 1 the created rule has the attribute after its own ones, its parent has none. *)
Example C93_all_case : IsConfig ex_schema ex_a /\ IsConfig ex_schema ex_b /\
  exists d, delta_nc ex_schema (Delta ex_a ex_b (Opts PCCreate PRMerge PDRemove DMinimumReplace 1)) = Ok d /\
    (exists u v s' n, At ex_schema d [u; v] s' n /\
      xattrs n = [(nc_operation, "create"); (yang_insert, "after"); (yang_key, "[id='10']"); ("operation", "replace")]) /\
    (exists u s' n, At ex_schema d [u] s' n /\ xattrs n = []).
Proof.
  split; [repeat split; vm_compute; reflexivity |]. split; [repeat split; vm_compute; reflexivity |]. eexists. split; [vm_compute; reflexivity |].
  assert (D : forall t s cs, schema_child s t = Ok cs -> Defines s t cs) by (intros; apply schema_child_Defines; auto).
  assert (SYS : Defines ex_schema "sys" (nth 0 (skids ex_schema) ex_schema)) by (apply D; vm_compute; reflexivity).
  split; [do 4 eexists | do 3 eexists]; (split; [eapply at_down; [left; reflexivity | exact SYS | apply id_other; discriminate |] |]).
  - eapply at_down; [do 12 right; left; reflexivity | apply D; vm_compute; reflexivity | apply id_list; [reflexivity | vm_compute] | constructor].
    eapply kt_cons; [left; reflexivity | reflexivity | | constructor]. intros c' [<- | [<- | []]] E; [reflexivity | discriminate].
  - reflexivity.
  - constructor.
  - reflexivity.
Qed.
