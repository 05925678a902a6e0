(** Examples and counterexamples for PropsXPath.v. *)
From Coq Require Import String Ascii List Bool Arith Lia.
From Verif Require Import Base BaseP XmlM CalcM CalcP DataSpec DataP TagM TagSpec TagP XPathM XPathSpec XPathP ExampleM.
Import ListNotations.
Open Scope string_scope.
Open Scope list_scope.

(** A module with a list of interfaces, which another module augments. *)
Definition xp_table : table := [Entry "ifs" "if" "urn:if"; Entry "eth" "e" "urn:eth"].
Definition u_if (n : string) := etree "urn:if" n.
Definition u_eth (n : string) := etree "urn:eth" n.
Definition xp_schema : snode :=
  s_root [ s_cont (u_if "ifs")
             [ s_list (u_if "if") false [u_if "name"]
                 [ s_key (u_if "name"); s_cont (u_eth "eth") [ s_leaf (u_eth "speed") ] ];
               s_ll (u_if "tag") true;
               s_choice (u_if "ch") [ s_case (u_if "one") [ s_leaf (u_if "uno") ] ] ] ].
Definition xp_if (n v : string) : xml :=
  e_node (u_if "if") [ e_leaf (u_if "name") n; e_node (u_eth "eth") [ e_leaf (u_eth "speed") v ] ].
Definition xp_x : xml :=
  e_config [ e_node (u_if "ifs") [ xp_if "Gi0/0" "10"; e_leaf (u_if "tag") "red"; xp_if "Gi0/1" "10"; e_leaf (u_if "tag") "blue";
                                   e_leaf (u_if "uno") "1" ] ].
Definition xp_urls := ["urn:eth"; "urn:if"].
Definition xp_env (p : string) : option string := assoc String.eqb p (get_ns xp_table xp_urls).

Lemma sole_if : Sole xp_table KUrl (Entry "ifs" "if" "urn:if").
Proof. apply Sole_matches. reflexivity. Qed.
Lemma sole_eth : Sole xp_table KUrl (Entry "eth" "e" "urn:eth").
Proof. apply Sole_matches. reflexivity. Qed.

Ltac plain := split; [discriminate |]; let c := fresh in let Hc := fresh in let Hd := fresh in intros c Hc Hd;
  cbn in Hc; repeat (destruct Hc as [<- | Hc];
    [cbn in Hd; repeat (destruct Hd as [Hd | Hd]; [discriminate |]); destruct Hd |]); destruct Hc.
Ltac word := split; [discriminate |]; let H := fresh in intro H; cbn in H; repeat (destruct H as [H | H]; [discriminate |]); destruct H.

Lemma known_if : forall n, Ncname n -> Known xp_table xp_urls (u_if n).
Proof.
  intros n Hn. exists (Entry "ifs" "if" "urn:if"), n. split; [apply sole_if |]. split; [cbn; auto |]. split; [reflexivity |].
  split; [word |]. split; [plain | auto].
Qed.
Lemma known_eth : forall n, Ncname n -> Known xp_table xp_urls (u_eth n).
Proof.
  intros n Hn. exists (Entry "eth" "e" "urn:eth"), n. split; [apply sole_eth |]. split; [cbn; auto |]. split; [reflexivity |].
  split; [word |]. split; [plain | auto].
Qed.

Lemma xp_Env : Env xp_table xp_urls xp_env.
Proof.
  intros e He Hu. apply Sole_In in He. destruct He as [<- | [<- | []]]; reflexivity.
Qed.

Lemma xp_Writable : Writable xp_table xp_urls xp_schema xp_x [0; 2; 1; 0].
Proof.
  Ltac down := let c := fresh "c" in let cs := fresh "cs" in let H := fresh "H" in let D := fresh "D" in
    intros c cs H D; cbn in H; injection H as <-;
    match type of D with Defines ?s ?t _ =>
      let r := eval vm_compute in (schema_child s t) in
      match r with Ok ?v =>
        let E := fresh "E" in assert (E : schema_child s t = Ok v) by (vm_compute; reflexivity);
        let F := fresh "F" in pose proof (Defines_schema_child _ _ _ _ E D) as F; subst; clear D end end.
  down. split; [apply known_if; plain |]. split; [constructor |]. split; [intros u [Hx | ts Hx HK | Hx Hy]; try discriminate Hx; exact I |].
  down. split; [apply known_if; plain |]. split; [constructor; [apply known_if; plain | constructor] |]. split.
  { intros u [Hx | ts Hx HK | Hx Hy]; try discriminate Hx; [| exact I]. cbn.
    inversion HK as [| k a ks ts' Ha Hta Hua HK']; subst. inversion HK'; subst. constructor; [| constructor].
    destruct Ha as [<- | [<- | []]]; [| discriminate]. exists "Gi0/1". split; [reflexivity |]. split; [discriminate |].
    intro H; cbn in H; repeat (destruct H as [H | H]; [discriminate |]); destruct H. }
  down. split; [apply known_eth; plain |]. split; [constructor |]. split; [intros u [Hx | ts Hx HK | Hx Hy]; try discriminate Hx; exact I |].
  down. split; [apply known_eth; plain |]. split; [constructor |]. split; [intros u [Hx | ts Hx HK | Hx Hy]; try discriminate Hx; exact I |].
  exact I.
Qed.

(** What can go wrong with values *)

(** A leaf-list value with quotes and brackets *)
Definition bad_value : string := ("v" ++ dq ++ "][text()=" ++ dq ++ "w")%string.
Definition xp_quote : xml := e_config [ e_node (u_if "ifs") [ e_leaf (u_if "tag") bad_value ] ].
Definition bad_path : list xstep :=
  [ XStep (Some "if") "ifs" []; XStep (Some "if") "tag" [PText "v"; PText "w"] ].
Lemma bad_quote : valid xp_schema xp_quote = true /\
  exists str, get_xpath xp_table LXML_XPATH true xp_schema xp_quote [0; 0] = Ok str /\
    show_path bad_path = str /\ Forall StepOK bad_path /\ select xp_env "" xp_quote bad_path = [].
Proof.
  split; [reflexivity |]. eexists. split; [vm_compute; reflexivity |]. split; [reflexivity |]. split; [| reflexivity].
  assert (Q : forall c, In c (chars "vw") -> c <> ascii_of_nat 34).
  { intros c H. cbn in H. repeat (destruct H as [<- | H]; [discriminate |]). destruct H. }
  constructor; [| constructor; [| constructor]].
  - split; [cbn; plain |]. split; [cbn; plain | constructor].
  - split; [cbn; plain |]. split; [cbn; plain |]. cbn. constructor; [| constructor; [| constructor]]; cbn; intros [G | []]; discriminate.
Qed.

(** An empty value is written as None. *)
Definition xp_none : xml :=
  e_config [ e_node (u_if "ifs") [ Elem (u_if "tag") None [] []; e_leaf (u_if "tag") "None" ] ].
Definition none_path : list xstep := [ XStep (Some "if") "ifs" []; XStep (Some "if") "tag" [PText "None"] ].
Lemma bad_none : valid xp_schema xp_none = true /\
  get_xpath xp_table LXML_XPATH true xp_schema xp_none [0; 0] = Ok (show_path none_path) /\
  get_xpath xp_table LXML_XPATH true xp_schema xp_none [0; 1] = Ok (show_path none_path) /\
  select xp_env "" xp_none none_path = [[0; 1]].
Proof. repeat split; reflexivity. Qed.

(** Statements *)
Definition xp_stmt : stmt :=
  Stmt "ifs" "if"
    [ Stmt "ifs" "if"
        [ Stmt "if" "if" [ Stmt "name" "if" []; Stmt "eth" "e" [ Stmt "speed" "e" [] ] ];
          Stmt "tag" "if" [];
          Stmt "ch" "if" [ Stmt "one" "if" [ Stmt "uno" "if" [] ] ] ] ].

Lemma xp_Clear : Clear xp_stmt.
Proof.
  Ltac cl := constructor; [cbn; repeat (constructor; [intros G; cbn in G; repeat (destruct G as [G | G]; [discriminate |]); destruct G |]); constructor
                          | intros c Hc; cbn in Hc; repeat (destruct Hc as [<- | Hc]; [cl |]); destruct Hc].
  cl.
Qed.
Lemma xp_NoBracket : ArgsOK xp_stmt.
Proof.
  Ltac ar := constructor; intros c Hc; cbn in Hc;
     repeat (destruct Hc as [<- | Hc]; [split; [intros G; cbn in G; repeat (destruct G as [G | G]; [discriminate |]); destruct G | ar] |]); destruct Hc.
  ar.
Qed.
Definition xp_ids : list (string * string) := [("if", "ifs"); ("if", "if"); ("e", "eth"); ("e", "speed")].
Lemma xp_TagOf : Forall2 (TagOf xp_table) xp_ids [u_if "ifs"; u_if "if"; u_eth "eth"; u_eth "speed"].
Proof.
  assert (I : forall n, Ncname n -> TagOf xp_table ("if", n) (u_if n)).
  { intros n Hn. exists (Entry "ifs" "if" "urn:if"). split; [apply sole_if |]. split; auto. split; auto. split; [word |]. split; [plain | auto]. }
  assert (J : forall n, Ncname n -> TagOf xp_table ("e", n) (u_eth n)).
  { intros n Hn. exists (Entry "eth" "e" "urn:eth"). split; [apply sole_eth |]. split; auto. split; auto. split; [word |]. split; [plain | auto]. }
  repeat constructor; first [apply I | apply J]; plain.
Qed.
Lemma xp_TagOf_tag : Forall2 (TagOf xp_table) [("if", "ifs"); ("if", "tag")] [u_if "ifs"; u_if "tag"].
Proof.
  assert (I : forall n, Ncname n -> TagOf xp_table ("if", n) (u_if n)).
  { intros n Hn. exists (Entry "ifs" "if" "urn:if"). split; [apply sole_if |]. split; auto. split; auto. split; [word |]. split; [plain | auto]. }
  repeat constructor; apply I; plain.
Qed.
Lemma statement_in_choice : exists tr,
  trail xp_schema xp_x [0; 4] = Ok tr /\
  config_statement xp_table xp_stmt xp_schema xp_x [0; 4] = Ok None /\
  schema_statement xp_table xp_stmt [u_if "ifs"; u_if "ch"; u_if "one"; u_if "uno"] = Ok (Some (Stmt "uno" "if" [])) /\
  last (map (fun sc => stag (fst sc)) tr) "" = last [u_if "ifs"; u_if "ch"; u_if "one"; u_if "uno"] "".
Proof. eexists. split; [vm_compute; reflexivity |]. split; [vm_compute; reflexivity |]. split; vm_compute; reflexivity. Qed.
