(** Example data and closing lemmas for PropsRefs.v. *)
From Coq Require Import String Ascii List Bool Arith Lia.
From Verif Require Import Base BaseP XmlM CalcM CalcP CacheM CacheSpec CacheP CachePropsP DeltaSpec DataSpec DataP CompareP ExampleM
  TagM TagSpec RefM RefSpec RefP RefPropsP IidSpec IidP IidPropsP RefsM RefsSpec RefsP.
Import ListNotations.
Open Scope string_scope.
Open Scope list_scope.

Lemma form_says : forall T dt ns ns' b b' x y, Unambiguous T -> Prefixes T None -> KnownTags T dt ->
  (forall p, Nsmap (ns b p)) -> (forall p, Nsmap (ns' b' p)) ->
  Says T dt (ns b) (ns b) [] [] x x -> Says T dt (ns' b') (ns' b') [] [] y y ->
  ((exists v, canon (device_refs T dt ns) b [] [] x = Ok v /\ canon (device_refs T dt ns') b' [] [] y = Ok v) <->
   Says T dt (ns b) (ns' b') [] [] x y).
Proof.
  intros T dt ns ns' b b' x y U PX K N N' Sx Sy. split.
  - intros (v & E & E'). eapply canon_says; eauto.
  - intro H. assert (E := says_canon T dt ns ns' b b' U PX K N N' x y [] [] H). rewrite E.
    assert (X : forall y p ts, Says T dt (ns' b') (ns' b') p ts y y -> exists v, canon (device_refs T dt ns') b' p ts y = Ok v).
    { clear -U PX K N'. induction y as [t tx a ks IH] using xml_ind'. intros p ts H. cbn [Says] in H.
      destruct H as (_ & _ & ST & KS). rewrite canon_eq.
      assert (A : exists w, canon_text (device_refs T dt ns') b' p ts tx = Ok w).
      { unfold SayText in ST. unfold canon_text, device_refs. cbn [is_ref default].
        destruct tx as [s |]; [| eauto]. destruct (dt ts) eqn:D; eauto.
        - destruct ST as (u & n & Iu & R1 & _). destruct (K ts (or_introl D)) as (z & t0 & L & Iw & Nt).
          unfold rnode_at. rewrite L, (id_default_ok T z t0 (ns' b' p) s u n); auto.
          destruct (compose_ok T z u n U Iu) as (w & ->). cbn [bind]. eauto.
        - destruct (K ts (or_intror D)) as (z & t0 & L & Iw & Nt). unfold rnode_at. rewrite L.
          destruct (iid_pair T z t0 (ns' b' p) (ns' b' p) s s U PX Iw Nt (N' p) (N' p) ST ST) as (a1 & a2 & -> & _).
          cbn [bind]. eauto. }
      destruct A as (w & ->). cbn [bind].
      assert (B : exists l, canon_kids (device_refs T dt ns') b' p ts 0 ks = Ok l).
      { revert KS. generalize 0. induction IH as [| c r C _ IHr]; intros i KS; cbn [canon_kids]; [eauto |].
        destruct KS as [K1 K2]. destruct (C _ _ K1) as (c' & ->). destruct (IHr _ K2) as (r' & ->). cbn [bind]. eauto. }
      destruct B as (l & ->). cbn [bind]. eauto. }
    destruct (X y [] [] Sy) as (v & Ev). rewrite Ev. eauto.
Qed.

(** Two configs that say the same compare equal. *)
Lemma says_equal : forall T dt ns dev max x y v, Unambiguous T -> Prefixes T None -> KnownTags T dt ->
  (forall b p, Nsmap (ns b p)) -> wfs dev = true -> sty dev = TRoot -> PlainKeys dev (device_refs T dt ns) ->
  Says T dt (ns true) (ns false) [] [] x y ->
  canon (device_refs T dt ns) true [] [] x = Ok v -> valid dev v = true ->
  calculator dev (device_refs T dt ns) max [(QEq, (x, y)); (QNe, (x, y)); (QLe, (x, y)); (QGe, (x, y))] =
  [Ok true; Ok false; Ok true; Ok true].
Proof.
  intros T dt ns dev max x y v U PX K N W TR PK H C V.
  assert (C' := says_canon T dt ns ns true false U PX K (N true) (N false) x y [] [] H). rewrite C in C'. symmetry in C'.
  assert (X := calculator_right dev (device_refs T dt ns) max (map (fun q => (q, (x, y))) [QEq; QNe; QLe; QGe]) W TR PK).
  cbn [map] in X. rewrite X.
  - cbn [fst snd]. rewrite C, C'. cbn [bind cmp].
    unfold cmp_eq, cmp_ne, cmp_ge, cmp_le. rewrite (node_le_refl v dev V). reflexivity.
  - intros q a b I. assert (Q : a = x /\ b = y).
    { cbn in I. repeat (destruct I as [I | I]; [injection I as _ <- <-; auto |]). destruct I. }
    destruct Q as [-> ->]. eauto.
  - intros q a b q' a' b' I I'.
    assert (Q : forall q a b, In (q, (a, b)) [(QEq, (x, y)); (QNe, (x, y)); (QLe, (x, y)); (QGe, (x, y))] -> a = x /\ b = y).
    { clear. intros q a b I. cbn in I. repeat (destruct I as [I | I]; [injection I as _ <- <-; auto |]). destruct I. }
    destruct (Q _ _ _ I) as [-> ->]. destruct (Q _ _ _ I') as [-> ->]. split; apply TextAlike_refl.
Qed.

(** ** Examples: interfaces with a type *)
Definition t_of (n : string) : string := etree (e_url ex_if) n.
Definition rf_schema : snode :=
  s_root [ s_list (t_of "interface") false [t_of "name"] [ s_key (t_of "name"); s_leaf (t_of "type"); s_leaf (t_of "peer"); s_ll (t_of "types") false ];
           s_list (t_of "default") false [t_of "type"] [ s_key (t_of "type"); s_leaf (t_of "mtu") ] ].
Definition rf_type (ts : list string) : datatype :=
  if list_eqb String.eqb ts [t_of "interface"; t_of "type"] || list_eqb String.eqb ts [t_of "interface"; t_of "types"]
  then DIdentity
  else if list_eqb String.eqb ts [t_of "interface"; t_of "peer"] then DInstance else DPlain.
Definition rf_ns (b : bool) (p : list nat) : nsmap :=
  if list_eqb Nat.eqb p [0; 4] then if b then iid_map else other_map else if b then map1 else map2.
Definition rf_x : xml :=
  e_config [ e_node (t_of "interface") [ e_leaf (t_of "name") "e0"; e_leaf (t_of "type") "ianaift:ethernetCsmacd";
                                         e_leaf (t_of "types") "ianaift:ethernetCsmacd"; e_leaf (t_of "types") "ethernetCsmacd";
                                         e_leaf (t_of "peer") (to_s (show_items ex_items)) ] ].
Definition rf_y : xml :=
  e_config [ e_node (t_of "interface") [ e_leaf (t_of "name") "e0"; e_leaf (t_of "type") "t:ethernetCsmacd";
                                         e_leaf (t_of "types") "iana-if-type:ethernetCsmacd"; e_leaf (t_of "types") "x:ethernetCsmacd";
                                         e_leaf (t_of "peer") (to_s (show_items other_items)) ] ].

Lemma rf_nsmaps : forall b p, Nsmap (rf_ns b p).
Proof. intros [|] p; unfold rf_ns; destruct (list_eqb _ _ _); first [apply ex_nsmaps | apply ex_maps]. Qed.
Lemma rf_known : KnownTags ref_table rf_type.
Proof.
  intros ts H. unfold rf_type in H.
  assert (L : last ts "" = t_of "type" \/ last ts "" = t_of "types" \/ last ts "" = t_of "peer").
  { destruct (list_eqb String.eqb ts [t_of "interface"; t_of "type"]) eqn:E1.
    - apply (list_eqb_ok String.eqb string_eqb_ok) in E1. subst. auto.
    - destruct (list_eqb String.eqb ts [t_of "interface"; t_of "types"]) eqn:E2.
      + apply (list_eqb_ok String.eqb string_eqb_ok) in E2. subst. auto.
      + destruct (list_eqb String.eqb ts [t_of "interface"; t_of "peer"]) eqn:E3.
        * apply (list_eqb_ok String.eqb string_eqb_ok) in E3. subst. auto.
        * cbn [orb] in H. destruct H; discriminate. }
  exists (e_url ex_if).
  destruct L as [L | [L | L]]; rewrite L; [exists "type" | exists "types" | exists "peer"]; (split; [reflexivity |]); (split; [left; reflexivity |]);
    (split; [word | split; not_in]).
Qed.
Lemma rf_plain : PlainKeys rf_schema (device_refs ref_table rf_type rf_ns).
Proof.
  split.
  - intros ts s H E. cbn [is_ref device_refs] in H. unfold rf_type in H.
    destruct (list_eqb String.eqb ts [t_of "interface"; t_of "type"]) eqn:E1.
    + apply (list_eqb_ok String.eqb string_eqb_ok) in E1. subst. vm_compute in E. injection E as <-. auto.
    + destruct (list_eqb String.eqb ts [t_of "interface"; t_of "types"]) eqn:E2.
      * apply (list_eqb_ok String.eqb string_eqb_ok) in E2. subst. vm_compute in E. injection E as <-. auto.
      * destruct (list_eqb String.eqb ts [t_of "interface"; t_of "peer"]) eqn:E3; [| discriminate].
        apply (list_eqb_ok String.eqb string_eqb_ok) in E3. subst. vm_compute in E. injection E as <-. auto.
  - intros ts s k E L I. cbn [is_ref device_refs]. unfold rf_type.
    destruct (list_eqb String.eqb (ts ++ [k]) [t_of "interface"; t_of "type"]) eqn:E1.
    { apply (list_eqb_ok String.eqb string_eqb_ok) in E1. destruct ts as [| t1 [| t2 r]]; try discriminate.
      - injection E1 as -> ->. vm_compute in E. injection E as <-. destruct I as [I | []]. discriminate I.
      - injection E1 as _ _ E1. destruct r; discriminate. }
    destruct (list_eqb String.eqb (ts ++ [k]) [t_of "interface"; t_of "types"]) eqn:E2.
    { apply (list_eqb_ok String.eqb string_eqb_ok) in E2. destruct ts as [| t1 [| t2 r]]; try discriminate.
      - injection E2 as -> ->. vm_compute in E. injection E as <-. destruct I as [I | []]. discriminate I.
      - injection E2 as _ _ E2. destruct r; discriminate. }
    destruct (list_eqb String.eqb (ts ++ [k]) [t_of "interface"; t_of "peer"]) eqn:E3; [| reflexivity].
    apply (list_eqb_ok String.eqb string_eqb_ok) in E3. destruct ts as [| t1 [| t2 r]]; try discriminate.
    + injection E3 as -> ->. vm_compute in E. injection E as <-. destruct I as [I | []]. discriminate I.
    + injection E3 as _ _ E3. destruct r; discriminate.
Qed.
Lemma rf_says : Says ref_table rf_type (rf_ns true) (rf_ns false) [] [] rf_x rf_y.
Proof.
  assert (W : Ident "ethernetCsmacd") by (split; [word | not_in]).
  destruct ex_refers as (R1 & R2 & R3 & R4).
  assert (R5 : Refers ref_table map2 "x:ethernetCsmacd" (e_url ex_if) "ethernetCsmacd").
  { apply (RPrefix ref_table map2 "x"); [word | exact W | left; reflexivity]. }
  cbn [Says rf_x rf_y e_config e_node e_leaf].
  repeat match goal with
         | |- _ /\ _ => split
         | |- True => exact I
         | |- SayText _ _ _ _ _ None None => reflexivity
         | |- _ = _ => reflexivity
         end.
  - reflexivity.
  - exists (e_url ex_idt), "ethernetCsmacd". split; [right; right; left; reflexivity | auto].
  - exists (e_url ex_idt), "ethernetCsmacd". split; [right; right; left; reflexivity | auto].
  - exists (e_url ex_if), "ethernetCsmacd". split; [left; reflexivity | auto].
  - exists ex_items, other_items, ex_sem. split; [reflexivity |]. split; [reflexivity |].
    split; [exact ex_denotes |]. split; [exact other_denotes |]. split; [exact (proj1 ex_tame) |].
    split; [exact (proj2 ex_tame) |]. split; [discriminate |]. split; [discriminate |].
    intros u H. cbn in H. repeat (destruct H as [<- | H]; [vm_compute; tauto |]). destruct H.
Qed.

(** A list whose key is an identityref. *)
Definition rk_type (ts : list string) : datatype :=
  if list_eqb String.eqb ts [t_of "default"; t_of "type"] then DIdentity else DPlain.
Definition rk_conf (v : string) : xml :=
  e_config [ e_node (t_of "default") [ e_leaf (t_of "type") v; e_leaf (t_of "mtu") "1500" ] ].
Lemma rk_known : KnownTags ref_table rk_type.
Proof.
  intros ts H. unfold rk_type in H. destruct (list_eqb String.eqb ts [t_of "default"; t_of "type"]) eqn:E1; [| destruct H; discriminate].
  apply (list_eqb_ok String.eqb string_eqb_ok) in E1. subst. exists (e_url ex_if), "type". split; [reflexivity |].
  split; [left; reflexivity |]. split; [word | split; not_in].
Qed.
Lemma rk_says : Says ref_table rk_type (rf_ns true) (rf_ns false) [] [] (rk_conf "ianaift:ethernetCsmacd") (rk_conf "t:ethernetCsmacd").
Proof.
  destruct ex_refers as (R1 & R2 & R3 & R4). cbn [Says rk_conf e_config e_node e_leaf].
  repeat match goal with
         | |- _ /\ _ => split
         | |- True => exact I
         | |- SayText _ _ _ _ _ None None => reflexivity
         | |- _ = _ => reflexivity
         end.
  - exists (e_url ex_idt), "ethernetCsmacd". split; [right; right; left; reflexivity | auto].
  - reflexivity.
Qed.
