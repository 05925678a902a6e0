(** Properties C82 and C83: the modules of a context, and the page of a comparison. *)
From Coq Require Import String Ascii List Bool.
From Verif Require Import Base XmlM CompileM ContextM ContextSpec ContextP.
Import ListNotations.
Open Scope string_scope.
Open Scope list_scope.

Definition cx_modules : modules :=
  [(("a", "2019-01-01"), Mod "module" 1); (("a-sub", "2019-01-01"), Mod "submodule" 2); (("a", "2020-01-01"), Mod "module" 3);
   (("b", "unknown"), Mod "module" 4); (("b-sub", "2018-01-01"), Mod "submodule" 5); (("b", "2021-01-01"), Mod "module" 6)].
Example C82_case : NoDup (map fst cx_modules) /\ map (fun e => mo_id (snd e)) (sort_modules cx_modules) = [1; 3; 4; 6; 2; 5] /\
  exists l, snd (validate_context true cx_modules) = Ok l /\ map mo_id l = [3; 2; 4; 5].
Proof.
  split; [repeat constructor; cbn; intuition congruence |]. split; [reflexivity |]. eexists. split; vm_compute; reflexivity.
Qed.

(** ** C82
    Modules are validated before submodules; otherwise the order is kept and none is lost. *)
Theorem C82_sorted : forall d, NoDup (map fst d) ->
  sort_modules d = filter (fun e => negb (String.eqb (mo_keyword (snd e)) "submodule")) d ++ filter (fun e => String.eqb (mo_keyword (snd e)) "submodule") d.
Proof. exact sort_exact. Qed.
Print Assumptions C82_sorted.

(** One revision of each module is pruned: the greatest. No key is missing. Nothing is pruned
    by a pyang that cannot. *)
Theorem C82_pruned : forall prunes d, NoDup (map fst d) ->
  exists revs l, validate_context prunes d = (sort_modules d, Ok l) /\ NoDup (map fst revs) /\
    (forall n r, In (n, r) revs <-> prunes = true /\ Newest (map fst d) n r) /\ Forall2 (fun k m => In (k, m) d) revs l.
Proof. exact pruned_any. Qed.
Print Assumptions C82_pruned.

(** It is the revision from which [get_statement] reads. *)
Theorem C82_read : forall keys n r, latest_revision keys n = Some r <-> Newest keys n r.
Proof. exact latest_iff. Qed.
Print Assumptions C82_read.
Example C82_read_case : Newest (map fst cx_modules) "a" "2020-01-01".
Proof. apply latest_iff. reflexivity. Qed.

(** The greatest is not the latest: a module without revision hides a dated one. *)
Theorem C82_undated_refuted : exists d l, NoDup (map fst d) /\ snd (validate_context true d) = Ok l /\
  In (("b", "2021-01-01"), Mod "module" 6) d /\ ~ In (Mod "module" 6) l /\ In (Mod "module" 4) l /\ In (("b", "unknown"), Mod "module" 4) d.
Proof.
  exists cx_modules, [Mod "module" 3; Mod "submodule" 2; Mod "module" 4; Mod "submodule" 5]. split; [apply C82_case |]. split; [vm_compute; reflexivity |].
  cbn. intuition discriminate.
Qed.
Print Assumptions C82_undated_refuted.

(** After a reset the context knows for each module the files of the repository with their
    revisions, in the order in which they are listed. *)
Theorem C82_reset : forall {H} (files : list (string * string * H)) m,
  assoc String.eqb m (reset_revs files) =
  match map (fun '(_, r, h) => (r, h)) (filter (fun '(n, _, _) => String.eqb n m) files) with [] => None | l => Some l end.
Proof. exact @reset_exact. Qed.
Print Assumptions C82_reset.
Example C82_reset_case : assoc String.eqb "a" (reset_revs [("a", "2019-01-01", 1); ("b", "2019-01-01", 2); ("a", "2020-01-01", 3)]) = Some [("2019-01-01", 1); ("2020-01-01", 3)].
Proof. reflexivity. Qed.

(** ** C83
    Two pages are the same exactly if they are about the same expression and show nodes with
    the same tags, texts and attributes. For texts without line breaks. *)
Theorem C83_page_partial : forall p p' l1 l2 m1 m2, one_line p -> one_line p' -> Plain l1 -> Plain l2 -> Plain m1 -> Plain m2 ->
  (compare_page p l1 l2 = compare_page p' m1 m2 <-> p = p' /\ shown l1 = shown m1 /\ shown l2 = shown m2).
Proof. exact page_exact. Qed.
Print Assumptions C83_page_partial.

Definition cx_leaf : xml := Elem "leaf" None [("type", "leaf"); ("datatype", "string")] [].
Example C83_case : one_line "//leaf" /\ Plain [cx_leaf] /\ Plain [] /\ compare_page "//leaf" [cx_leaf] [] =
  String.concat nl ["--------------------- XPATH ---------------------"; "'//leaf'"; "-------------------- MODEL 1 --------------------";
    "tag: 'leaf'"; "text: None"; "attributes:"; "  type = 'leaf'"; "  datatype = 'string'";
    "-------------------- MODEL 2 --------------------"; "None"; "-------------------------------------------------"; ""].
Proof.
  split; [apply one_line_lit; reflexivity |]. split; [| split; [exact I | reflexivity]].
  split; [apply one_line_lit; reflexivity |]. split; [intros t H; discriminate |].
  intros k v [H | [H | []]]; injection H as <- <-; (split; [apply one_line_lit; reflexivity | split; [apply one_line_lit; reflexivity |]]); cbn; intuition discriminate.
Qed.

(** With line breaks in a value two different nodes give the same page. *)
Theorem C83_break_refuted : exists p a b, shown [a] <> shown [b] /\ compare_page p [a] [] = compare_page p [b] [].
Proof.
  exists "//x", (Elem "x" None [("a", ("1'" ++ nl ++ "  b = '2")%string)] []), (Elem "x" None [("a", "1"); ("b", "2")] []). split; [discriminate | reflexivity].
Qed.
Print Assumptions C83_break_refuted.

(** Only the first node found is compared. *)
Theorem C83_first_refuted : exists p a b c, shown [b] <> shown [c] /\ compare_page p [a; b] [] = compare_page p [a; c] [].
Proof. exists "//x", cx_leaf, cx_leaf, (Elem "y" None [] []). split; [discriminate | reflexivity]. Qed.
Print Assumptions C83_first_refuted.
