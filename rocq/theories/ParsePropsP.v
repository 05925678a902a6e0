(** Examples for C81. *)
From Coq Require Import String Ascii List Bool Arith Lia.
From Verif Require Import ParseM ParseSpec ParseP ParsePlaceP.
Import ListNotations.
Open Scope string_scope.
Open Scope list_scope.
Open Scope nat_scope.

(** Words of letters, digits, dots, hyphens and colons are good enough here. *)
Definition pa_ident (w : string) : bool := negb (String.eqb w "").
Definition pa (t : tok) (l a b : nat) : token := Token t (l, a) (l, b).
Definition pa_word (w : string) : tok := Word [(w, false)].
(** [module a {] / [yang-version 1.1; namespace "urn:" + "a";] / [leaf x { type string; }] / [}] *)
Definition pa_text : list token :=
  [ pa (pa_word "module") 1 0 6; pa (pa_word "a") 1 7 8; pa Open 1 9 10;
    pa (pa_word "yang-version") 2 2 14; pa (pa_word "1.1") 2 15 18; pa Semi 2 18 19;
    pa (pa_word "namespace") 2 20 29; Token (Word [("urn:", true); ("a", true)]) (2, 30) (2, 42); pa Semi 2 42 43;
    pa (pa_word "leaf") 3 2 6; pa (pa_word "x") 3 7 8; pa Open 3 9 10; pa (pa_word "type") 3 11 15; pa (pa_word "string") 3 16 22; pa Semi 3 22 23; pa Close 3 24 25;
    pa Close 4 0 1 ].
Definition pa_tree : tree :=
  Tree "module" (Some "a") [Tree "yang-version" (Some "1.1") []; Tree "namespace" (Some "urn:a") []; Tree "leaf" (Some "x") [Tree "type" (Some "string") []]].

Lemma pa_reads : exists s st, read pa_ident false pa_text = POk (s, st) /\ shape s = pa_tree /\ p_toks st = [] /\ p_1_1 st = true.
Proof. eexists. eexists. split; [vm_compute; reflexivity |]. split; [reflexivity |]. split; reflexivity. Qed.
Lemma pa_forward : Forward (0, 0) pa_text.
Proof. repeat (constructor; [unfold ple; cbn; lia | unfold ple; cbn; lia |]). constructor. Qed.
Lemma pa_spelled : SpellsTop pa_ident false pa_tree (map t_tok pa_text).
Proof.
  destruct pa_reads as (s & st & R & S & T & _). destruct (proj1 (read_iff pa_ident false pa_text pa_tree [])) as (w & E & SP); [exists s, st; auto |].
  rewrite app_nil_r in E. subst w. exact SP.
Qed.

(** A comment on line 5 after a statement that ends on line 2 *)
Definition pa_note : list token :=
  [ pa (pa_word "module") 1 0 6; pa (pa_word "a") 1 7 8; pa Open 1 9 10; pa (pa_word "prefix") 2 2 8; pa (pa_word "a") 2 9 10; pa Semi 2 10 11;
    pa (Comment "// here" true false) 5 2 9; pa Close 6 0 1 ].
Lemma comment_before : exists ident toks s st d, Forward (0, 0) toks /\ read ident true toks = POk (s, st) /\ Within s d /\ ~ ple (firstp d) (lastp d).
Proof.
  exists pa_ident, pa_note. assert (R : exists s st, read pa_ident true pa_note = POk (s, st)) by (eexists; eexists; vm_compute; reflexivity).
  destruct R as (s & st & R). exists s, st, (Stmt "_comment" (Some "// here") 5 (5, 2) (2, 9) (Some (true, false)) []).
  split; [repeat (constructor; [unfold ple; cbn; lia | unfold ple; cbn; lia |]); constructor |]. split; auto.
  vm_compute in R. injection R as <- _. split; [| unfold ple; cbn; lia].
  eapply wi_down; [cbn; right; left; reflexivity | apply wi_here].
Qed.

Definition pa_two : list token :=
  [ pa (Comment "// one" true false) 1 0 6; pa (Comment "// two" true false) 2 0 6; pa (pa_word "module") 3 0 6; pa (pa_word "a") 3 7 8; pa Open 3 9 10; pa Close 3 11 12 ].
Lemma two_comments : exists ident toks, (exists s st, read ident false (filter (fun t => match t_tok t with Comment _ _ _ => false | _ => true end) toks) = POk (s, st)) /\
  read ident true toks = PErr (Abort "SYNTAX_ERROR") /\ exists s st, read ident true (tl toks) = POk (s, st).
Proof. exists pa_ident, pa_two. split; [| split; [vm_compute; reflexivity |]]; eexists; eexists; vm_compute; reflexivity. Qed.

(** The file names of an outer position are not cut. *)
Lemma label_top : forall base ref line, label_with base true (Position ref line None) = label (rename base (Position ref line None)).
Proof. reflexivity. Qed.
Lemma label_plain : forall base p, label_with base false p = label p.
Proof. intros base [ref line [q |]]; reflexivity. Qed.
Lemma label_deep : forall base q ref line, label_with base true (Position ref line (Some q)) = label (rename base (Position ref line (Some q))) -> label q = label (rename base q).
Proof.
  intros base q ref line H. cbn in H. set (z := (" (at " ++ base ref ++ ":" ++ line ++ ")")%string) in H.
  assert (G : forall a b c : string, (a ++ c = b ++ c)%string -> a = b).
  { intros a b c E. assert (L : String.length a = String.length b).
    { apply (f_equal String.length) in E. assert (A : forall x y, String.length (x ++ y) = String.length x + String.length y) by (induction x; intro y; cbn; auto).
      rewrite !A in E. lia. }
    revert b L E. induction a as [| ch a IH]; intros [| ch' b] L E; cbn in *; try lia; auto. injection E as -> E. f_equal. apply IH; [lia | exact E]. }
  exact (G _ _ _ H).
Qed.
Theorem label_exact : forall base ref line u,
  label_with base true (Position ref line u) = label (rename base (Position ref line u)) <-> match u with None => True | Some q => label q = label (rename base q) end.
Proof.
  intros base ref line [q |]; [| split; auto; intros _; apply label_top]. split; intro H; [apply (label_deep base q ref line H) |].
  cbn. rewrite H. reflexivity.
Qed.
Lemma label_refuted : exists base p, label_with base true p = "dir/b.yang:7 (at a.yang:3)" /\ label (rename base p) = "b.yang:7 (at a.yang:3)".
Proof.
  exists (fun f => if String.eqb f "dir/a.yang" then "a.yang" else if String.eqb f "dir/b.yang" then "b.yang" else f), (Position "dir/a.yang" "3" (Some (Position "dir/b.yang" "7" None))).
  split; reflexivity.
Qed.
