(** Example devices and counterexamples for C71. *)
From Coq Require Import String Ascii List Bool Arith Permutation Lia.
From Verif Require Import Base BaseP XmlM CalcM NetconfM ConfigM DeltaSpec ConfigSpec CompatP CalcP DataSpec DataP TagM MDiffM MDiffSpec MDiffP MDiffPropsP
  DepictM DepictP DeviceM DeviceSpec DeviceP CompatM CompatSpec CompatDevP CompatCmpP.
Import ListNotations.
Open Scope string_scope.
Open Scope list_scope.

(** ** Checks on literals *)
Definition tops_of (t : xml) : list string := map xtag (xkids t) ++ map stag (flat_map datas (map read_node (xkids t))).
Lemma Top_in : forall t r, Top t r -> In r (tops_of t).
Proof.
  intros t r [(c & I & <-) | (s & <- & k & I & H)]; unfold tops_of; apply in_app_iff; [left; apply in_map; exact I | right].
  apply in_map. apply in_flat_map. exists k. split; [exact I |]. destruct (through_flat_node k s H [] false) as (e & Ie & <-).
  rewrite <- (flat_node_datas k [] false). apply in_map. exact Ie.
Qed.
Definition fineb (d : vdev) : bool :=
  MDiffPropsP.nodupb (map fst (v_models d)) &&
  forallb (fun p => forallb (fun q => String.eqb (fst p) (fst q) || negb (existsb (fun r => mem String.eqb r (tops_of (snd q))) (tops_of (snd p)))) (v_models d)) (v_models d).
Lemma fine_of : forall d, fineb d = true -> Fine d.
Proof.
  intros d H. unfold fineb in H. apply andb_true_iff in H. destruct H as (H1 & H2). split; [apply MDiffPropsP.nodup_dec; exact H1 |].
  intros n t n' t' r L L' T T'. rewrite forallb_forall in H2. specialize (H2 (n, t) L). rewrite forallb_forall in H2. specialize (H2 (n', t') L').
  cbn [fst snd] in H2. apply orb_true_iff in H2. destruct H2 as [H2 | H2]; [apply String.eqb_eq; exact H2 |]. exfalso.
  apply negb_true_iff, not_true_iff_false in H2. apply H2. apply existsb_exists. exists r. split; [apply Top_in; exact T |].
  apply (mem_In String.eqb String.eqb_eq). apply Top_in. exact T'.
Qed.
Definition localb (d : vdev) : bool :=
  forallb (fun p => forallb (fun e => negb (eq_opt "list" (get_attr "type" (snd e))) || MDiffPropsP.nodupb (map local_name (xkids (snd e)))) (nodes (snd p))) (v_models d).
Lemma local_of : forall d, localb d = true -> OneLocal d.
Proof.
  intros d H n t p x L A E. unfold localb in H. rewrite forallb_forall in H. specialize (H (n, t) L). cbn [snd] in H. rewrite forallb_forall in H.
  specialize (H (p, x) (nodes_At _ _ _ A)). cbn [snd] in H. apply orb_true_iff in H. destruct H as [H | H]; [| apply MDiffPropsP.nodup_dec; exact H].
  rewrite E in H. discriminate.
Qed.

(** ** Two devices with the same models *)
Definition node (t : string) (a : list (string * string)) (ks : list xml) : xml := Elem t None a ks.
Definition cx_key := node "{u}name" [("type", "leaf"); ("access", "read-write"); ("is_key", "true")] [].
Definition cx_role := node "{u}role" [("type", "leaf"); ("access", "read-write"); ("default", "guest")] [].
Definition cx_user (ks : list xml) := node "{u}user" [("type", "list"); ("access", "read-write"); ("key", "name"); ("ordered-by", "user")] ks.
Definition cx_dns (o : list (string * string)) := node "{u}dns" (o ++ [("type", "leaf-list"); ("access", "read-write")]) [].
Definition cx_m1 : xml := Elem "m" None [("prefix", "u")] [node "{u}sys" [("type", "container"); ("access", "read-write")] [cx_user [cx_key; cx_role]; cx_dns []]].
Definition cx_m2 : xml := Elem "m" None [("prefix", "u")] [node "{u}sys" [("access", "read-write"); ("type", "container")] [cx_dns []; cx_user [cx_role; cx_key]]].
Definition cx_x (t : string) : xml := Elem t None [] [node ("{" ++ t ++ "}top")%string [("type", "leaf")] []].
Definition cx_d1 : vdev := VDev 1 [("x", cx_x "x"); ("m", cx_m1)] ["m"; "x"] (Some [Entry "m" "u" "u"; Entry "x" "x" "x"]).
Definition cx_d2 : vdev := VDev 2 [("m", cx_m2); ("y", cx_x "y")] ["y"; "m"] (Some [Entry "y" "y" "y"; Entry "m" "u" "u"]).
Definition cx_leaf (t v : string) : xml := Elem t (Some v) [] [].
Definition cx_entry (n : string) : xml := Elem "{u}user" None [] [cx_leaf "{u}name" n].
Definition cx_cfg (ks : list xml) : xml := Elem config_tag None [] [Elem "{u}sys" None [] ks].
Definition cx_a : xml := cx_cfg [cx_entry "ann"; cx_entry "bob"].
Definition cx_b : xml := cx_cfg [cx_entry "ann"; cx_entry "eve"; cx_entry "bob"; cx_leaf "{u}dns" "1.1.1.1"].
Definition cx_c1 : vcfg := VCfg cx_d1 ["{u}sys"].
Definition cx_c2 : vcfg := VCfg cx_d2 ["{u}sys"].
Lemma cx_fine1 : Fine cx_d1. Proof. apply fine_of. vm_compute. reflexivity. Qed.
Lemma cx_fine2 : Fine cx_d2. Proof. apply fine_of. vm_compute. reflexivity. Qed.
Lemma cx_local : OneLocal cx_d1. Proof. apply local_of. vm_compute. reflexivity. Qed.
Lemma cx_one : OneObject (OCfg cx_c1) (OCfg cx_c2). Proof. intro H. discriminate. Qed.
Lemma cx_ok : is_compatible (OCfg cx_c1) (OCfg cx_c2) = Ok true. Proof. vm_compute. reflexivity. Qed.
Lemma cx_stored1 : Stored cx_d1. Proof. intros n t [E | [E | []]]; injection E as <- <-; reflexivity. Qed.
Lemma cx_stored2 : Stored cx_d2. Proof. intros n t [E | [E | []]]; injection E as <- <-; reflexivity. Qed.
Lemma cx_diffable1 : Diffable cx_d1.
Proof. intros n t [E | [E | []]]; injection E as <- <-; (split; [apply distinct_nodes | apply typed_nodes]); vm_compute; reflexivity. Qed.
Lemma cx_diffable2 : Diffable cx_d2.
Proof. intros n t [E | [E | []]]; injection E as <- <-; (split; [apply distinct_nodes | apply typed_nodes]); vm_compute; reflexivity. Qed.
Lemma cx_roots1 : RootsLoaded (OCfg cx_c1). Proof. exact (proj1 (compat_roots _ _ _ cx_ok)). Qed.
Lemma cx_roots2 : RootsLoaded (OCfg cx_c2). Proof. exact (proj2 (compat_roots _ _ _ cx_ok)). Qed.
Lemma cx_agree : Agree (OCfg cx_c1) (OCfg cx_c2).
Proof.
  apply (compat_sound (OCfg cx_c1) (OCfg cx_c2) true); [intros c -> | intros c -> | exact cx_one | exact cx_ok]; [exact cx_fine1 | exact cx_fine2].
Qed.
Lemma cx_loadable : forall n, Uses (OCfg cx_c1) n \/ Uses (OCfg cx_c2) n -> In n (v_loadable cx_d1) /\ In n (v_loadable cx_d2).
Proof.
  apply (compat_loadable (OCfg cx_c1) (OCfg cx_c2) true); [intros c -> | intros c -> | exact cx_ok | discriminate]; [exact cx_fine1 | exact cx_fine2].
Qed.
Lemma cx_uses : Uses (OCfg cx_c1) "m".
Proof. exists cx_c1, "{u}sys", cx_m1. split; [reflexivity |]. split; [left; reflexivity |]. split; [right; left; reflexivity |]. eexists. split; [left; reflexivity | reflexivity]. Qed.
Lemma cx_comparable : ConfigSpec.Comparable (v_schema cx_d1) cx_a cx_b.
Proof.
  split; [vm_compute; reflexivity |]. split; [vm_compute; reflexivity |].
  split; [apply inplace_Ends | apply (compat_NoSwitch true)]; vm_compute; reflexivity.
Qed.

(** ** Incompatible devices: the leaf-list is user-ordered on the first one only *)
Definition cx_o1 : xml := Elem "m" None [("prefix", "u")] [node "{u}sys" [("type", "container")] [cx_dns [("ordered-by", "user")]]].
Definition cx_o2 : xml := Elem "m" None [("prefix", "u")] [node "{u}sys" [("type", "container")] [cx_dns []]].
Definition cx_e1 : vdev := VDev 1 [("m", cx_o1)] ["m"] (Some [Entry "m" "u" "u"]).
Definition cx_e2 : vdev := VDev 2 [("m", cx_o2)] ["m"] (Some [Entry "m" "u" "u"]).
Definition cx_12 : xml := cx_cfg [cx_leaf "{u}dns" "1"; cx_leaf "{u}dns" "2"].
Definition cx_21 : xml := cx_cfg [cx_leaf "{u}dns" "2"; cx_leaf "{u}dns" "1"].
Lemma eq_unchecked : exists c1 c2 x y,
  Fine (c_dev c1) /\ Fine (c_dev c2) /\ OneLocal (c_dev c1) /\ OneLocal (c_dev c2) /\ Holds c1 x /\ Holds c2 y /\
  IsConfig (v_schema (c_dev c1)) x /\ IsConfig (v_schema (c_dev c2)) y /\
  is_compatible (OCfg c1) (OCfg c2) = Err ModelIncompatible /\
  cmp_eq (v_schema (c_dev c1)) x y = Ok false /\ cmp_eq (v_schema (c_dev c2)) y x = Ok true.
Proof.
  exists (VCfg cx_e1 ["{u}sys"]), (VCfg cx_e2 ["{u}sys"]), cx_12, cx_21.
  split; [apply fine_of; vm_compute; reflexivity |]. split; [apply fine_of; vm_compute; reflexivity |].
  split; [apply local_of; vm_compute; reflexivity |]. split; [apply local_of; vm_compute; reflexivity |].
  repeat split; vm_compute; reflexivity.
Qed.

(** ** Two children of a list with one local name, in two orders *)
Definition cx_k2 := node "{v}name" [("type", "leaf")] [].
Definition cx_l1 : xml := Elem "m" None [] [cx_user [cx_key; cx_k2]].
Definition cx_l2 : xml := Elem "m" None [] [cx_user [cx_k2; cx_key]].
Definition cx_f1 : vdev := VDev 1 [("m", cx_l1)] ["m"] (Some [Entry "m" "u" "u"]).
Definition cx_f2 : vdev := VDev 2 [("m", cx_l2)] ["m"] (Some [Entry "m" "u" "u"]).
Lemma local_needed : exists c1 c2 x,
  Fine (c_dev c1) /\ Fine (c_dev c2) /\ Holds c1 x /\ Holds c2 x /\ is_compatible (OCfg c1) (OCfg c2) = Ok true /\
  IsConfig (v_schema (c_dev c1)) x /\
  cmp_eq (v_schema (c_dev c1)) x x = Ok true /\ cmp_eq (v_schema (c_dev c2)) x x = Err ConfigError.
Proof.
  exists (VCfg cx_f1 ["{u}user"]), (VCfg cx_f2 ["{u}user"]), (Elem config_tag None [] [cx_entry "ann"]).
  split; [apply fine_of; vm_compute; reflexivity |]. split; [apply fine_of; vm_compute; reflexivity |].
  repeat split; vm_compute; reflexivity.
Qed.
