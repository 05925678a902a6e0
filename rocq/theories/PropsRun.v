(** C26-C36, C60, C61: diffs of running configs. *)
From Coq Require Import String Ascii List Bool Arith ZArith Lia Permutation.
From Verif Require Import Base RunningM RunSpec RunDiffP RunCliP RunTextP RunSibP RunOrderP RunAllP RunExactP RunShowP RunNestSpec RunNestP RunFairP RunDelM RunDelP RegexP.
Import ListNotations.
Open Scope string_scope.
Open Scope list_scope.

(** ** C26
    The diff of a list of lines with itself is empty exactly if no line stands before
    and after another one. *)
Theorem C26_self_exact : forall l, list_diff l l = Ok [] <-> ~ surrounded l.
Proof. exact self_diff. Qed.
Print Assumptions C26_self_exact.

Theorem C26_self_distinct : forall l, NoDup (keys l) -> list_diff l l = Ok [].
Proof. exact self_diff_distinct. Qed.
Print Assumptions C26_self_distinct.

(** Full statement: [forall t, Silent t t]. Missing: texts with a line twice under one
    parent. For all other texts the condition is exact: no line stands before and after
    another one once sibling sections are split. *)
Theorem C26_identical_exact : forall t l s, parse (map replace_line t) = Ok l -> distinct l ->
  handle_siblings is_sibling_command l = Ok s -> (Silent t t <-> ~ surrounded s).
Proof. exact self_exact. Qed.
Print Assumptions C26_identical_exact.

(** It holds if no client line occurs twice, or if no client section contains another. *)
Theorem C26_identical_partial : forall t l, parse (map replace_line t) = Ok l -> distinct l ->
  NoDup (filter is_sibling_command (flat_map lines_of l)) \/ forallb (apart is_sibling_command) l = true -> Silent t t.
Proof. intros t l P D [N | A]; [exact (self_single t l P D N) | exact (self_silent t l P D A)]. Qed.
Print Assumptions C26_identical_partial.

Definition ex_run : list string :=
  [ "hostname r1"; "!"; "interface Gi1"; " description up"; " ip address 1.1.1.1 255.0.0.0"; "!"; "ip route 2.2.2.2 255.0.0.0 Null0"; "ntp server 1.1.1.1" ].
Definition ex_lines : list item :=
  [ It "hostname r1" None ISame;
    It "interface Gi1" (Some [It "description up" None ISame; It "ip address 1.1.1.1 255.0.0.0" None ISame]) ISame;
    It "ip route 2.2.2.2 255.0.0.0 Null0" None ISame; It "ntp server 1.1.1.1" None ISame ].
Lemma ex_lines_distinct : distinct ex_lines.
Proof.
  split; [| repeat constructor]; simpl; try (repeat constructor; simpl; intuition discriminate).
Qed.
Example C26_case : parse (map replace_line ex_run) = Ok ex_lines /\ forallb (apart is_sibling_command) ex_lines = true /\ Silent ex_run ex_run.
Proof.
  assert (P : parse (map replace_line ex_run) = Ok ex_lines) by (vm_compute; reflexivity).
  split; auto. split; [reflexivity |]. apply (C26_identical_partial _ ex_lines); auto. apply ex_lines_distinct.
Qed.

(** Client sections in one another. *)
Definition ex_clients : list string :=
  [ "client 1.1.1.1"; " server-key a"; " client 2.2.2.2"; " server-key b"; " client 3.3.3.3"; "!"; "hostname b" ].
Definition ex_client_lines : list item :=
  [ It "client 1.1.1.1" (Some [It "server-key a" None ISame; It "client 2.2.2.2" (Some [It "server-key b" None ISame]) ISame;
                               It "client 3.3.3.3" None ISame]) ISame; It "hostname b" None ISame ].
Example C26_clients_case : parse (map replace_line ex_clients) = Ok ex_client_lines /\
  handle_siblings is_sibling_command ex_client_lines <> Ok ex_client_lines /\ Silent ex_clients ex_clients.
Proof.
  assert (P : parse (map replace_line ex_clients) = Ok ex_client_lines) by (vm_compute; reflexivity).
  split; auto. split; [vm_compute; discriminate |]. apply (C26_identical_partial _ ex_client_lines); auto.
  - split; [| repeat constructor]; simpl; try (repeat constructor; simpl; intuition discriminate).
  - left. cbv. repeat constructor; simpl; intuition discriminate.
Qed.

(** A client line that comes to stand on both sides of another line. *)
Theorem C26_clients_refuted : exists t l, parse (map replace_line t) = Ok l /\ distinct l /\ ~ Silent t t.
Proof.
  exists ["client b"; " x"; " client a"; "!"; "hostname h"; "client a"; " y"; "!"]. eexists. split; [vm_compute; reflexivity |]. split.
  - split; [| repeat constructor]; simpl; try (repeat constructor; simpl; intuition discriminate).
  - intros (_ & _ & H & _). vm_compute in H. discriminate.
Qed.
Print Assumptions C26_clients_refuted.

(** A line before and after another one: lines are reported as removed and added. *)
Theorem C26_identical_refuted : exists t, running_bool t t = Ok true.
Proof. exists ["a"; "b"; "a"]. vm_compute. reflexivity. Qed.
Print Assumptions C26_identical_refuted.

(** ** C27 *)
Theorem C27_no_diff_same : forall l1 l2, plain l1 = true -> plain l2 = true -> list_diff l1 l2 = Ok [] -> l1 = l2.
Proof. exact no_diff_same. Qed.
Print Assumptions C27_no_diff_same.

Example C27_case : list_diff ex_lines ex_lines = Ok [] /\ list_diff ex_lines (tl ex_lines) <> Ok [].
Proof. split; [vm_compute; reflexivity | vm_compute; discriminate]. Qed.

(** For texts, not lists of lines, this is false: of two equal orderless lines in the
    first text one is lost. *)
Theorem C27_texts_refuted : exists t1 t2 l1 l2, parse (map replace_line t1) = Ok l1 /\ parse (map replace_line t2) = Ok l2 /\
  length l1 <> length l2 /\ get_diff false t1 t2 = Ok [].
Proof.
  exists ["ip route a"; "ip route b"; "ip route a"], ["ip route a"; "ip route b"].
  eexists; eexists. split; [vm_compute; reflexivity |]. split; [vm_compute; reflexivity |]. split; [simpl; lia | vm_compute; reflexivity].
Qed.
Print Assumptions C27_texts_refuted.

(** ** C28
    The diff exists for all lists of lines, is an edit script of them, and with the
    context shown its lines are those of the one list and those of the other one. *)
Theorem C28_edit_script : forall l1 l2, plain l1 = true -> plain l2 = true -> exists d, list_diff l1 l2 = Ok d /\ Script l1 l2 d.
Proof. exact list_diff_edit. Qed.
Print Assumptions C28_edit_script.
Example C28_edit_case : plain ex_lines = true /\ plain (rev ex_lines) = true /\ exists d, list_diff ex_lines (rev ex_lines) = Ok d /\ length d = 7.
Proof. split; [reflexivity |]. split; [reflexivity |]. eexists. split; vm_compute; reflexivity. Qed.

Theorem C28_projections : forall l1 l2, exists raw,
  list_diff l1 l2 = Ok (cleanup [] raw) /\ keys (filter not_plus raw) = keys l1 /\ keys (filter not_minus raw) = keys l2.
Proof. exact list_diff_raw. Qed.
Print Assumptions C28_projections.

Theorem C28_texts : forall t1 t2, exists s1 s2 d d', running_lists t1 t2 = Ok (s1, s2) /\
  get_diff false t1 t2 = Ok d /\ Script s1 s2 d /\ get_diff true t1 t2 = Ok d' /\ Script s2 s1 d'.
Proof. exact get_diff_script. Qed.
Print Assumptions C28_texts.

(** What is compared are the lines of the texts. *)
Theorem C28_same_lines : forall t1 t2 l1 l2 s1 s2,
  parse (map replace_line t1) = Ok l1 -> parse (map replace_line t2) = Ok l2 -> distinct l1 -> distinct l2 ->
  running_lists t1 t2 = Ok (s1, s2) ->
  Permutation (flat_map lines_of l1) (flat_map lines_of s1) /\ Permutation (flat_map lines_of l2) (flat_map lines_of s2).
Proof. exact running_lists_lines. Qed.
Print Assumptions C28_same_lines.

Definition ex_run2 : list string :=
  [ "hostname r2"; "interface Gi1"; " ip address 1.1.1.2 255.0.0.0"; " mtu 9000"; "ntp server 1.1.1.1" ].
Example C28_case : get_diff false ex_run ex_run2 =
  Ok [ It "hostname r1" None IMinus; It "hostname r2" None IPlus;
       It "interface Gi1" (Some [ It "description up" None IMinus; It "ip address 1.1.1.1 255.0.0.0" None IMinus;
                                  It "ip address 1.1.1.2 255.0.0.0" None IPlus; It "mtu 9000" None IPlus ]) ISame;
       It "ip route 2.2.2.2 255.0.0.0 Null0" None IMinus ].
Proof. vm_compute. reflexivity. Qed.

(** ** C29
    For every indentation and every tree of ordinary lines. *)
Theorem C29_parse_text : forall n l, 0 < n -> ordinary l = true -> parse (text n l) = Ok l.
Proof. exact parse_text_back. Qed.
Print Assumptions C29_parse_text.

(** [list2config], the rendering the code has, below the line of a section. *)
Theorem C29_render : forall k l, ordinary_item (It k (Some l) ISame) = true ->
  parse (k :: list2config None l) = Ok [It k (Some l) ISame].
Proof. exact render_parse. Qed.
Print Assumptions C29_render.

(** Whatever the text, no line of the result ends in a blank. *)
Theorem C29_tidy : forall ls, exists l, parse ls = Ok l /\ forallb tidy_item l = true.
Proof. exact parse_tidy. Qed.
Print Assumptions C29_tidy.

Example C29_case : ordinary ex_lines = true /\ parse (text 1 ex_lines) = Ok ex_lines /\ parse (text 3 ex_lines) = Ok ex_lines.
Proof. repeat split; vm_compute; reflexivity. Qed.

(** ** C30 *)
Theorem C30_no_duplicates : forall regs d, NoDup (c_pos (cli_lists regs d)) /\ NoDup (c_neg (cli_lists regs d)).
Proof. exact cli_NoDup. Qed.
Print Assumptions C30_no_duplicates.

Theorem C30_all_kept : forall l c, In c (remove_duplicates l) <-> In c l.
Proof. intros l c. unfold remove_duplicates. rewrite dedup_In. simpl. tauto. Qed.
Print Assumptions C30_all_kept.

Theorem C30_once : forall l, NoDup (remove_duplicates l).
Proof. intro l. exact (dedup_NoDup l []). Qed.
Print Assumptions C30_once.

(** In the order of first occurrence *)
Theorem C30_order : forall l1 c l2, ~ In c l1 -> exists r, remove_duplicates (l1 ++ c :: l2) = remove_duplicates l1 ++ c :: r.
Proof. intros l1 c l2 N. exact (dedup_first l1 c l2 [] N (fun x => x)). Qed.
Print Assumptions C30_order.

Example C30_case : remove_duplicates [["a"]; ["b"]; ["a"]; ["s"; " a"]; ["b"]] = [["a"]; ["b"]; ["s"; " a"]].
Proof. vm_compute. reflexivity. Qed.

(** ** C31
    Every removal is still done by a command that is a leading part of it. Full
    statement: [LeadingWords] for [Begins]. *)
Theorem C31_prune_negative_partial : forall l t, In [t] l -> exists t', In [t'] (prune_negative l) /\ Begins t' t.
Proof. intros l t H. exact (prune_negative_keeps l [t] t H eq_refl). Qed.
Print Assumptions C31_prune_negative_partial.

Theorem C31_subset : forall l c, In c (prune_negative l) -> In c l.
Proof. exact prune_negative_incl. Qed.
Print Assumptions C31_subset.

(** Commands with sub-commands are not touched. *)
Theorem C31_sections : forall l k x r, In (k :: x :: r) l -> In (k :: x :: r) (prune_negative l).
Proof. intros l k x r H. exact (prune_negative_multi l (k :: x :: r) H eq_refl). Qed.
Print Assumptions C31_sections.

Example C31_case : prune_negative [["no router bgp 1 vrf a"]; ["no router bgp 1"]; ["no a"]] = [["no router bgp 1"]; ["no a"]].
Proof. vm_compute. reflexivity. Qed.

(** The parts compared are characters, not words: of the VLANs 1 and 10 only 1 is removed. *)
Theorem C31_words_refuted : exists t1 t2 k ls, In (It k None IMinus) (match get_diff false t1 t2 with Ok d => d | Err _ => [] end) /\
  get_cli false t1 t2 = Ok ls /\ (forall t, In t ls -> ~ LeadingWords t ("no " ++ k)).
Proof.
  exists ["vlan 1"; "vlan 10"], ["hostname a"], "vlan 10". eexists. split; [vm_compute; auto |]. split; [vm_compute; reflexivity |].
  intros t [E | [E | [E | []]]] [H | (r & H)]; subst; try discriminate.
Qed.
Print Assumptions C31_words_refuted.

(** ** C32
    Full statement: the command left extends the words of the one dropped. *)
Theorem C32_prune_positive_partial : forall l t, In [t] l -> exists t', In [t'] (prune_positive l) /\ Begins t t'.
Proof. exact prune_positive_keeps. Qed.
Print Assumptions C32_prune_positive_partial.

Theorem C32_subset : forall l c, In c (prune_positive l) -> In c l.
Proof. exact prune_positive_incl. Qed.
Print Assumptions C32_subset.

Theorem C32_sections : forall l k x r, In (k :: x :: r) l -> In (k :: x :: r) (prune_positive l).
Proof. intros l k x r H. exact (prune_positive_multi l (k :: x :: r) H eq_refl). Qed.
Print Assumptions C32_sections.

Example C32_case : prune_positive [["switchport"]; ["switchport mode access"]; ["mtu 1"]] = [["switchport mode access"]; ["mtu 1"]].
Proof. vm_compute. reflexivity. Qed.

(** Of the servers 1.1.1.1 and 1.1.1.10 only the second one is configured. *)
Theorem C32_words_refuted : exists t1 t2 k ls, In (It k None IPlus) (match get_diff false t1 t2 with Ok d => d | Err _ => [] end) /\
  get_cli false t1 t2 = Ok ls /\ (forall t, In t ls -> ~ LeadingWords k t).
Proof.
  exists ["hostname a"], ["hostname a"; "ntp server 1.1.1.1"; "ntp server 1.1.1.10"], "ntp server 1.1.1.1". eexists. split; [vm_compute; auto |]. split; [vm_compute; reflexivity |].
  intros t [E | []] [H | (r & H)]; subst; discriminate.
Qed.
Print Assumptions C32_words_refuted.

(** ** C33 *)
Theorem C33_undo_no : forall s, clean s -> handle_command ("no no " ++ s) = (s, false).
Proof. exact handle_double. Qed.
Print Assumptions C33_undo_no.

Theorem C33_undo : forall s, clean s -> s <> "" -> starts "no " s = false ->
  exists u, handle_command ("no " ++ s) = (u, true) /\ Begins u ("no " ++ s) /\
    (u = ("no " ++ s)%string \/ In u (map strip short_no_commands)).
Proof. exact handle_no. Qed.
Print Assumptions C33_undo.
Example C33_undo_case : clean "ip address 1.1.1.1 255.0.0.0" /\ starts "no " "ip address 1.1.1.1 255.0.0.0" = false /\
  In "no ip address" (map strip short_no_commands).
Proof. split; [split; vm_compute; reflexivity |]. split; [reflexivity |]. vm_compute. tauto. Qed.

Theorem C33_do : forall s, clean s -> starts "no no " s = false -> (forall sc, In sc short_no_commands -> starts sc s = false) ->
  handle_command s = (s, starts "no " s).
Proof. exact handle_add. Qed.
Print Assumptions C33_do.

Example C33_case : clean "shutdown" /\ handle_command "no no shutdown" = ("shutdown", false) /\
  handle_command "no ip address 1.1.1.1 255.0.0.0" = ("no ip address", true) /\ handle_command "no mtu 9000" = ("no mtu 9000", true).
Proof. repeat split; vm_compute; reflexivity. Qed.

(** ** C34
    Full statement: without the condition that no line occurs twice. *)
Theorem C34_orderless_moves_partial : forall ol l1 l2 l, distinct l1 -> distinct l2 -> orderless ol l1 l2 = Ok l -> Moved ol 0 l1 l.
Proof. exact orderless_moved. Qed.
Print Assumptions C34_orderless_moves_partial.

(** The lines that are orderless at depth [d]: those that an expression of the table
    given for this depth matches. *)
Theorem C34_which_lines : forall d k, match_orderless d k = true <->
  exists ps w rest, In (ps, d) orderless_commands /\ k = (w ++ rest)%string /\ Match ps w rest.
Proof. exact orderless_lines. Qed.
Print Assumptions C34_which_lines.

Example C34_which_case : match_orderless 1 " ospfv3 12 ipv6 neighbor fe80::1" = true /\ match_orderless 0 " ospfv3 12 ipv6 neighbor fe80::1" = false /\
  match_orderless 0 "interface Gi1" = false.
Proof. repeat split; vm_compute; reflexivity. Qed.

Theorem C34_returns : forall ol l1 l2, exists l, orderless ol l1 l2 = Ok l.
Proof. exact orderless_total. Qed.
Print Assumptions C34_returns.

Definition ex_routes : list item := map (fun k => It k None ISame) ["hostname r1"; "ip route b"; "ip route c"; "ip route a"].
Definition ex_routes2 : list item := map (fun k => It k None ISame) ["hostname r1"; "ip route a"; "ip route b"; "ip route d"].
Example C34_case : distinct ex_routes /\ distinct ex_routes2 /\
  exists l, orderless match_orderless ex_routes ex_routes2 = Ok l /\ l <> ex_routes.
Proof.
  assert (D : forall l, NoDup l -> distinct (map (fun k => It k None ISame) l)).
  { intros l N. split; [unfold keys; rewrite map_map; cbn; rewrite map_id; auto |]. apply Forall_forall. intros x H. apply in_map_iff in H. destruct H as (k & E & _). subst. exact I. }
  split; [apply D; repeat constructor; simpl; intuition discriminate |]. split; [apply D; repeat constructor; simpl; intuition discriminate |].
  eexists. split; [vm_compute; reflexivity | vm_compute; discriminate].
Qed.

(** Of a line that occurs twice one is lost. *)
Theorem C34_duplicates_refuted : exists l1 l2 l, orderless match_orderless l1 l2 = Ok l /\ length l < length l1.
Proof.
  exists (map (fun k => It k None ISame) ["ip route a"; "ip route b"; "ip route a"]), (map (fun k => It k None ISame) ["ip route a"; "ip route b"]).
  eexists. split; [vm_compute; reflexivity | simpl; lia].
Qed.
Print Assumptions C34_duplicates_refuted.

(** ** C35
    If two lines are in different order only where both are orderless, at every level,
    then the texts have no difference. Full statement: also where only one of the two
    is orderless. *)
Theorem C35_orderless : forall ol l1 l2, Shuffled ol 0 l1 l2 -> orderless ol l1 l2 = Ok l2.
Proof. exact orderless_shuffled. Qed.
Print Assumptions C35_orderless.

Theorem C35_no_difference_exact : forall t1 t2 l1 l2 s,
  parse (map replace_line t1) = Ok l1 -> parse (map replace_line t2) = Ok l2 -> Shuffled match_orderless 0 l1 l2 ->
  handle_siblings is_sibling_command l2 = Ok s -> (Silent t1 t2 <-> ~ surrounded s).
Proof. exact shuffled_exact. Qed.
Print Assumptions C35_no_difference_exact.

Theorem C35_no_difference_partial : forall t1 t2 l1 l2,
  parse (map replace_line t1) = Ok l1 -> parse (map replace_line t2) = Ok l2 -> Shuffled match_orderless 0 l1 l2 ->
  NoDup (filter is_sibling_command (flat_map lines_of l2)) \/ forallb (apart is_sibling_command) l2 = true -> Silent t1 t2.
Proof.
  intros t1 t2 l1 l2 P1 P2 S [N | A]; [exact (shuffled_single t1 t2 l1 l2 P1 P2 S N) | exact (shuffled_silent t1 t2 l1 l2 P1 P2 S A)].
Qed.
Print Assumptions C35_no_difference_partial.

Definition ex_swap1 := ["hostname a"; "ip route a"; "ip route b"; "ip route c"].
Definition ex_swap2 := ["hostname a"; "ip route c"; "ip route b"; "ip route a"].
Example C35_case : Shuffled match_orderless 0 (map (fun k => It k None ISame) ex_swap1) (map (fun k => It k None ISame) ex_swap2) /\ Silent ex_swap1 ex_swap2.
Proof.
  assert (S : Shuffled match_orderless 0 (map (fun k => It k None ISame) ex_swap1) (map (fun k => It k None ISame) ex_swap2)).
  { assert (K : forall l, keys (map (fun k => It k None ISame) l) = l) by (intro l; unfold keys; rewrite map_map; cbn; apply map_id).
    constructor; rewrite ?K.
    - repeat constructor; simpl; intuition discriminate.
    - repeat constructor; simpl; intuition discriminate.
    - intro k. simpl. tauto.
    - intros a b O. assert (P : forall h r r', (forall z, In z r <-> In z r') -> ~ In h r -> forall a b, (a = h \/ b = h) -> Precedes a b (h :: r) -> Precedes a b (h :: r')).
      { clear. intros h r r' I N a b D (x & y & z & E). destruct x as [| x0 x]; simpl in E; injection E as E1 E2.
        - subst a. assert (B : In b r') by (apply I; rewrite E2; apply in_or_app; right; left; auto). apply in_split in B. destruct B as (p & q & B). exists [], p, q. rewrite B. auto.
        - exfalso. subst x0. destruct D as [D | D]; subst; apply N; apply in_or_app; right; [left; auto |]. right. apply in_or_app. right. left. auto. }
      assert (OL : forall k, In k ["ip route a"; "ip route b"; "ip route c"] -> match_orderless 0 k = true) by (intros k [E | [E | [E | []]]]; subst; vm_compute; reflexivity).
      assert (D : forall l, (forall k, In k l <-> In k ["hostname a"; "ip route a"; "ip route b"; "ip route c"]) -> Precedes a b l -> a = "hostname a" \/ b = "hostname a").
      { intros l I (x & y & z & E). assert (A1 : In a l) by (rewrite E; apply in_or_app; right; left; auto). assert (B1 : In b l) by (rewrite E; apply in_or_app; right; right; apply in_or_app; right; left; auto).
        apply I in A1. apply I in B1. destruct O as [O | O]; [left; destruct A1 as [A1 | A1]; auto | right; destruct B1 as [B1 | B1]; auto]; exfalso; rewrite OL in O; auto; discriminate. }
      split; intro H; (assert (H' : a = "hostname a" \/ b = "hostname a") by (refine (D _ _ H); intro k; simpl; tauto)); revert H; apply P; auto; try (intro z; simpl; tauto); simpl; intuition discriminate.
    - intros k v1 i1 v2 i2 H1 H2. apply in_map_iff in H1. apply in_map_iff in H2. destruct H1 as (x & H1 & _). destruct H2 as (y & H2 & _). injection H1 as _ E1 E2. injection H2 as _ E3 E4. subst. auto. }
  split; auto. apply (C35_no_difference_partial ex_swap1 ex_swap2 _ _) with (3 := S); [vm_compute; reflexivity | vm_compute; reflexivity | right; vm_compute; reflexivity].
Qed.

(** An orderless line that crosses one whose order matters. *)
Theorem C35_crossing_refuted : exists t1 t2, Permutation t1 t2 /\ NoDup t1 /\
  filter (fun k => negb (match_orderless 0 k)) t1 = filter (fun k => negb (match_orderless 0 k)) t2 /\ running_bool t1 t2 = Ok true.
Proof.
  exists ["ip route m"; "hostname a"], ["hostname a"; "ip route m"]. split; [apply perm_swap |]. split; [repeat constructor; simpl; intuition discriminate |].
  split; vm_compute; reflexivity.
Qed.
Print Assumptions C35_crossing_refuted.

(** ** C36
    No command is lost or added. *)
Theorem C36_all_kept : forall sib l l', handle_siblings sib l = Ok l' -> Permutation (flat_map lines_of l) (flat_map lines_of l').
Proof. exact handle_siblings_lines. Qed.
Print Assumptions C36_all_kept.

(** The commands of this kind are the client lines. *)
Theorem C36_which_lines : forall k, is_sibling_command k = true <->
  exists a r, all_chars (Ascii.eqb " ") a /\ k = (a ++ "client " ++ r)%string.
Proof. exact client_line. Qed.
Print Assumptions C36_which_lines.

Theorem C36_returns : forall sib l, exists l', handle_siblings sib l = Ok l'.
Proof. exact handle_siblings_total. Qed.
Print Assumptions C36_returns.

(** A section with sections of the same kind among its sub-commands becomes the section
    without them, followed by them. *)
Theorem C36_split : forall sib k stay sibs i mixed,
  sib k = true -> stay <> [] -> forallb (apart sib) stay = true ->
  filter (fun c => negb (sib (ikey c))) mixed = stay -> filter (fun c => sib (ikey c)) mixed = sibs ->
  handle_siblings sib [It k (Some mixed) i] = Ok (It k (Some stay) i :: sibs).
Proof. intros sib k stay sibs i mixed K N A M1 M2. exact (siblings_one sib k stay sibs i K N A mixed M1 M2). Qed.
Print Assumptions C36_split.

(** Otherwise nothing changes. *)
Theorem C36_untouched : forall sib l, forallb (apart sib) l = true -> handle_siblings sib l = Ok l.
Proof. intros sib l A. exact (siblings_apart (S (depth l)) sib l (Nat.lt_succ_diag_r _) A). Qed.
Print Assumptions C36_untouched.

Example C36_case : handle_siblings is_sibling_command
    [It "client 1.1.1.1" (Some [It "server-key a" None ISame; It "client 2.2.2.2" (Some [It "server-key b" None ISame]) ISame]) ISame] =
  Ok [It "client 1.1.1.1" (Some [It "server-key a" None ISame]) ISame; It "client 2.2.2.2" (Some [It "server-key b" None ISame]) ISame].
Proof. vm_compute. reflexivity. Qed.

(** Not all of them are split: a sibling moved up is not looked at again. *)
Theorem C36_full_split_refuted : exists l l', handle_siblings is_sibling_command l = Ok l' /\ forallb (apart is_sibling_command) l' = false.
Proof.
  exists [It "client a" (Some [It "x" None ISame; It "client b" (Some [It "y" None ISame; It "client c" None ISame]) ISame]) ISame].
  eexists. split; vm_compute; reflexivity.
Qed.
Print Assumptions C36_full_split_refuted.

(** ** C60
    Each line of the diff has its command. An added line is configured by itself or by
    a command that extends it. Full statement: for all lines; missing are the lines for
    which the code has a special rule, and below a kept section the texts with a word
    that begins with a sign. *)
Theorem C60_added_partial : forall r t1 t2 d k, get_diff r t1 t2 = Ok d -> In (It k None IPlus) d ->
  clean k -> k <> "" -> starts "no " k = false -> existsb (fun ps => re_test ps k) overwritable_commands = false ->
  exists ls t, get_cli r t1 t2 = Ok ls /\ In t ls /\ Begins k t.
Proof. exact added_line_cli. Qed.
Print Assumptions C60_added_partial.

(** An added section is written out as a whole, and is read back as itself. *)
Theorem C60_section_partial : forall r t1 t2 d k l, get_diff r t1 t2 = Ok d -> In (It k (Some l) IPlus) d ->
  ordinary_item (It k (Some l) ISame) = true ->
  (forall ps, In ps overwritable_commands -> over_match ps (k :: list2config None l) = None) ->
  exists ls a b, get_cli r t1 t2 = Ok ls /\ ls = a ++ (k :: list2config None l) ++ b /\
    parse (k :: list2config None l) = Ok [It k (Some l) ISame].
Proof. exact added_section_cli. Qed.
Print Assumptions C60_section_partial.

(** The part of a line that another line overwrites. *)
Theorem C60_overwritable : forall ps k w, In ps overwritable_commands ->
  (re_match ps k = Some w <-> exists rest, k = (w ++ rest)%string /\ Match ps w rest).
Proof. exact overwritable_match. Qed.
Print Assumptions C60_overwritable.

(** A removed line is extended by an added one, or negated, or a command made from
    another line of the diff overwrites it. *)
Theorem C60_removed_partial : forall r t1 t2 d k v, get_diff r t1 t2 = Ok d -> In (It k v IMinus) d ->
  clean k -> k <> "" -> starts "no " k = false ->
  (exists k', In (It k' None IPlus) d /\ Begins k k' /\ v = None) \/
  (exists ls t, get_cli r t1 t2 = Ok ls /\ In t ls /\ t <> "" /\ Begins t ("no " ++ k)) \/
  (exists x c ps m u, In x d /\ MadeFrom x c /\ In ps overwritable_commands /\ over_match ps c = Some m /\
     handle_command ("no " ++ k) = (u, true) /\ Begins ("no " ++ lstrip m) u).
Proof. exact removed_line_cli. Qed.
Print Assumptions C60_removed_partial.

Definition ex_run3 : list string :=
  [ "hostname r1"; "interface Gi2"; " mtu 9000"; " shutdown"; "ntp server 1.1.1.1"; "snmp-server contact a" ].
Example C60_case : get_cli false ex_run ex_run3 =
  Ok [ "no ip route 2.2.2.2 255.0.0.0 Null0"; "no interface Gi1"; "!";
       "interface Gi2"; "  mtu 9000"; "  shutdown"; "snmp-server contact a" ] /\
  existsb (fun ps => re_test ps "snmp-server contact a") overwritable_commands = false /\
  ordinary_item (It "interface Gi2" (Some [It "mtu 9000" None ISame; It "shutdown" None ISame]) ISame) = true.
Proof. repeat split; vm_compute; reflexivity. Qed.

(** The same for the lines below sections that are kept: the command stands below their
    headers. [p] is the way down, [d'] the part of the diff found there. *)
Theorem C60_added_below_partial : forall r t1 t2 d p d' k, Forall unsigned (map replace_line (t1 ++ t2)) -> get_diff r t1 t2 = Ok d -> Below p d d' ->
  (forall h, In h p -> Kept h) ->
  In (It k None IPlus) d' -> clean k -> starts "no " k = false -> existsb (fun ps => re_test ps k) overwritable_commands = false ->
  exists ls, get_cli r t1 t2 = Ok ls /\ Within p (fun s => exists t, In t s /\ t <> "" /\ Begins k t) ls.
Proof. exact added_below. Qed.
Print Assumptions C60_added_below_partial.

Theorem C60_section_below_partial : forall r t1 t2 d p d' k l, Forall unsigned (map replace_line (t1 ++ t2)) -> get_diff r t1 t2 = Ok d -> Below p d d' ->
  (forall h, In h p -> Kept h) ->
  In (It k (Some l) IPlus) d' -> ordinary_item (It k (Some l) ISame) = true ->
  (forall ps, In ps overwritable_commands -> over_match ps (k :: list2config None l) = None) ->
  exists ls, get_cli r t1 t2 = Ok ls /\ Within p (fun s => exists a b, s = a ++ (k :: list2config None l) ++ b) ls /\
    parse (k :: list2config None l) = Ok [It k (Some l) ISame].
Proof. exact section_below. Qed.
Print Assumptions C60_section_below_partial.

Theorem C60_removed_below_partial : forall r t1 t2 d p d' k v, Forall unsigned (map replace_line (t1 ++ t2)) -> get_diff r t1 t2 = Ok d -> Below p d d' ->
  (forall h, In h p -> Kept h) ->
  In (It k v IMinus) d' -> clean k -> starts "no " k = false ->
  (exists k', In (It k' None IPlus) d' /\ Begins k k' /\ v = None) \/
  (exists ls, get_cli r t1 t2 = Ok ls /\ Within p (fun s => exists t, In t s /\ t <> "" /\ Begins t ("no " ++ k)) ls) \/
  (exists x c ps m u, In x d' /\ MadeFrom x c /\ In ps overwritable_commands /\ over_match ps c = Some m /\
     handle_command ("no " ++ k) = (u, true) /\ Begins ("no " ++ lstrip m) u).
Proof. exact removed_below. Qed.
Print Assumptions C60_removed_below_partial.

Definition ex_bgp1 : list string :=
  [ "router bgp 1"; " bgp log-neighbor-changes"; " address-family ipv4"; "  neighbor 1.1.1.1 activate"; "  maximum-paths 4" ].
Definition ex_bgp2 : list string :=
  [ "router bgp 1"; " bgp log-neighbor-changes"; " address-family ipv4"; "  neighbor 2.2.2.2 activate"; "  maximum-paths 4"; "  table-map"; "   a"; "   b" ].
Definition ex_bgp_new : list item := [It "a" None ISame; It "b" None ISame].
Definition ex_bgp_low : list item :=
  [ It "neighbor 1.1.1.1 activate" None IMinus; It "neighbor 2.2.2.2 activate" None IPlus; It "table-map" (Some ex_bgp_new) IPlus ].
Definition ex_bgp_diff : list item := [ It "router bgp 1" (Some [It "address-family ipv4" (Some ex_bgp_low) ISame]) ISame ].
Example C60_below_case :
  Forall unsigned (map replace_line (ex_bgp1 ++ ex_bgp2)) /\ get_diff false ex_bgp1 ex_bgp2 = Ok ex_bgp_diff /\
  Below ["router bgp 1"; "address-family ipv4"] ex_bgp_diff ex_bgp_low /\ (forall h, In h ["router bgp 1"; "address-family ipv4"] -> Kept h) /\
  clean "neighbor 2.2.2.2 activate" /\ existsb (fun ps => re_test ps "neighbor 2.2.2.2 activate") overwritable_commands = false /\
  ordinary_item (It "table-map" (Some ex_bgp_new) ISame) = true /\
  get_cli false ex_bgp1 ex_bgp2 =
    Ok [ "router bgp 1"; "  address-family ipv4"; "    no neighbor 1.1.1.1 activate"; "!"; "router bgp 1"; "  address-family ipv4";
         "    neighbor 2.2.2.2 activate"; "    table-map"; "      a"; "      b" ].
Proof.
  split; [apply unsigned_lines; vm_compute; reflexivity |]. split; [vm_compute; reflexivity |].
  split; [eapply below_section; [left; reflexivity |]; eapply below_section; [left; reflexivity |]; constructor |].
  split; [| repeat split; vm_compute; reflexivity].
  intros h [E | [E | []]]; subst h; (split; [reflexivity |]; split; [reflexivity |]); intros ps Hp; cbn [overwritable_commands In] in Hp;
    repeat (destruct Hp as [Hp | Hp]; [subst ps; vm_compute; reflexivity |]); destruct Hp.
Qed.

(** A line that begins with a sign loses its place: the sign is taken for the mark of a
    diff, and the command stands at the top level. *)
Theorem C60_sign_refuted : exists t1 t2 d d' k ls, get_diff false t1 t2 = Ok d /\ Below ["menu m"] d d' /\ Kept "menu m" /\ In (It k None IPlus) d' /\ clean k /\
  existsb (fun ps => re_test ps k) overwritable_commands = false /\ get_cli false t1 t2 = Ok ls /\ ls = ["menu m"; "-  b 1"] /\
  ~ Within ["menu m"] (fun s => exists t, In t s /\ t <> "" /\ Begins k t) ls.
Proof.
  exists ["menu m"; " a"], ["menu m"; " a"; " -b 1"]. eexists. eexists. exists "-b 1". eexists. split; [vm_compute; reflexivity |].
  split; [eapply below_section; [left; reflexivity | constructor] |].
  split. { split; [reflexivity |]. split; [reflexivity |]. intros ps Hp; cbn [overwritable_commands In] in Hp; repeat (destruct Hp as [Hp | Hp]; [subst ps; vm_compute; reflexivity |]); destruct Hp. }
  split; [left; reflexivity |]. split; [vm_compute; reflexivity |]. split; [vm_compute; reflexivity |]. split; [vm_compute; reflexivity |]. split; [reflexivity |].
  intros (a & sub & b & E & t & T & _ & (r & Bt)). destruct sub as [| s0 sub]; [destruct T |].
  assert (X : In ("  " ++ s0)%string ["menu m"; "-  b 1"]). { rewrite E. apply in_or_app. right. right. left. reflexivity. }
  destruct X as [X | [X | []]]; discriminate.
Qed.
Print Assumptions C60_sign_refuted.

(** An address line is taken to overwrite all address lines before it: of two that are
    added only the last one is configured. *)
Theorem C60_added_refuted : exists t1 t2 k ls, In (It k None IPlus) (match get_diff false t1 t2 with Ok d => d | Err _ => [] end) /\
  clean k /\ get_cli false t1 t2 = Ok ls /\ (forall t, In t ls -> ~ Begins k t).
Proof.
  exists ["mtu 1"], ["mtu 1"; "ip address 1.1.1.1 255.0.0.0"; "ip address 2.2.2.2 255.0.0.0 secondary"], "ip address 1.1.1.1 255.0.0.0".
  eexists. split; [vm_compute; auto |]. split; [vm_compute; reflexivity |]. split; [vm_compute; reflexivity |].
  intros t [E | []] (r & H); subst; discriminate.
Qed.
Print Assumptions C60_added_refuted.

(** ** C61 *)
Theorem C61_never_raises : forall t1 t2 r, (exists d, get_diff r t1 t2 = Ok d) /\ (exists b, running_bool t1 t2 = Ok b) /\
  (exists s, running_str t1 t2 = Ok s) /\ (exists c, get_cli r t1 t2 = Ok c).
Proof. exact running_total. Qed.
Print Assumptions C61_never_raises.

(** The commands that are dropped are dropped by index, from lists of indexes that are
    collected before. No index is out of range, no index occurs twice, and what is left
    is what the model without indexes says. *)
Theorem C61_deletions : forall st, finish_idx overwritable_commands st = Ok (finish overwritable_commands st).
Proof. exact finish_eq. Qed.
Print Assumptions C61_deletions.

Example C61_deletions_case : finish_idx overwritable_commands
  (Clis [["ip address 1.1.1.1 255.0.0.0"]; ["mtu 9000"]; ["ip address 2.2.2.2 255.0.0.0"]; ["mtu 9000"]; ["ip address 3.3.3.3 255.0.0.0"]; ["ntp"]; ["ntp server 1.1.1.1"]]
        [["no ip address"]; ["no mtu"]; ["no mtu 1"]; ["no ip address 4.4.4.4"]]) =
  Ok (Clis [["mtu 9000"]; ["ip address 3.3.3.3 255.0.0.0"]; ["ntp server 1.1.1.1"]] [["no ip address"]; ["no mtu"]]).
Proof. vm_compute. reflexivity. Qed.

Example C61_case : running_str [" x"; "  y"; "a"; "   b"; "!"] ["!"; "a"] = Ok ["  a"; "-   b"].
Proof. vm_compute. reflexivity. Qed.

(** ** C62
    What is printed is the diff: each line with its sign and its indentation. *)
Theorem C62_printed : forall t1 t2, exists d, get_diff false t1 t2 = Ok d /\ running_str t1 t2 = Ok (printed d).
Proof. exact running_printed. Qed.
Print Assumptions C62_printed.

Example C62_case : running_str ex_run ex_run2 =
  Ok [ "- hostname r1"; "+ hostname r2"; "  interface Gi1"; "-   description up"; "-   ip address 1.1.1.1 255.0.0.0";
       "+   ip address 1.1.1.2 255.0.0.0"; "+   mtu 9000"; "- ip route 2.2.2.2 255.0.0.0 Null0" ].
Proof. vm_compute. reflexivity. Qed.
