(** Example data for C74 and C75. *)
From Coq Require Import String Ascii List Bool Arith Permutation.
From Verif Require Import Base BaseP XmlM RunningM DepictM DepsM DepsSpec DepsP DepsRaceP.
Import ListNotations.
Open Scope string_scope.
Open Scope list_scope.

Definition dm (k a : string) (l : list stm) : stm := Stm (Kw k) a l.
Definition de_types : stm := dm "module" "types" [dm "namespace" "urn:types" []; dm "prefix" "t" []; dm "revision" "2020-01-01" []].
Definition de_old : stm := dm "module" "acl" [dm "namespace" "urn:acl" []; dm "prefix" "acl" []].
Definition de_acl : stm :=
  dm "module" "acl" [dm "namespace" "urn:acl" []; dm "prefix" "acl" []; dm "import" "types" [dm "prefix" "ty" []]; dm "include" "acl-sub" []; dm "container" "acls" []].
Definition de_sub : stm := dm "submodule" "acl-sub" [dm "belongs-to" "acl" [dm "prefix" "acl" []]; dm "import" "types" [dm "prefix" "t" []]; dm "grouping" "g" []].
Definition de_hid : stm :=
  dm "module" "hid" [dm "namespace" "urn:hid" []; dm "prefix" "hid" []; dm "container" "c" [Stm (KwExt "tailf-common" "hidden") "full" []]].
Definition de_bad : stm := dm "module" "bad" [dm "namespace" "urn:bad" []; dm "prefix" "bad" []; dm "import" "types" []].
Definition de_all : list stm := [de_old; de_types; de_acl; de_sub; de_hid].
Definition de_deps : list xml := fold_left (fun d s => fst (update_dependencies d s)) de_all [].

Lemma fold_recorded : forall ss, Recorded ss (fold_left (fun d s => fst (update_dependencies d s)) ss []).
Proof. intro ss. induction ss as [| s ss IH] using rev_ind; [constructor |]. rewrite fold_left_app. cbn [fold_left]. constructor. exact IH. Qed.
Lemma de_recorded : Recorded de_all de_deps. Proof. apply fold_recorded. Qed.
Lemma de_complete : forall s, In s de_all -> Complete s.
Proof. intros s I. apply node_ok. cbn in I. repeat (destruct I as [<- | I]; [vm_compute; reflexivity |]). destruct I. Qed.
Lemma de_incomplete : ~ Complete de_bad.
Proof. rewrite <- node_ok. vm_compute. discriminate. Qed.
Lemma de_latest : Latest de_all de_acl.
Proof. exists [de_old; de_types], [de_sub; de_hid]. split; [reflexivity |]. intros s [<- | [<- | []]]; cbn; discriminate. Qed.
Lemma de_distinct : NoDup (map s_arg [de_types; de_acl; de_sub; de_hid]).
Proof. cbn. repeat constructor; cbn; intuition discriminate. Qed.
(** What the imports and the dependents of a module have to do with each other *)
Theorem inverse : forall ss deps, Recorded ss deps -> (forall s, In s ss -> Complete s) -> forall a b,
  (In b (fst (get_dependencies deps a)) -> In a (snd (get_dependencies deps b))) /\
  (In a (snd (get_dependencies deps b)) -> In b (fst (get_dependencies deps a)) \/ exists s, Latest ss s /\ s_arg s = a /\ Includes s b).
Proof.
  intros ss deps R C a b. rewrite (deps_imports ss deps R C), (deps_depends ss deps R C). split.
  - intros (s & L & E & I). eauto 6.
  - intros (s & L & E & [I | I]); eauto 8.
Qed.
Theorem include_left_out : exists ss deps a b, Recorded ss deps /\ (forall s, In s ss -> Complete s) /\
  In a (snd (get_dependencies deps b)) /\ ~ In b (fst (get_dependencies deps a)) /\ ~ In b (required deps a).
Proof.
  exists de_all, de_deps, "acl", "acl-sub". split; [exact de_recorded |]. split; [exact de_complete |]. split; [vm_compute; auto |]. split; vm_compute; intuition discriminate.
Qed.
