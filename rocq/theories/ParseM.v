(** The parser of YANG statements that replaces pyang's, /repo/src/ncdiff/__init__.py:170-276
    ([Position], [_parse_statement]). No proofs in this file.

    pyang's tokenizer is not in /repo. It is taken as the list of tokens that it will deliver;
    its calls are modelled by what [_parse_statement] expects of them. *)
From Coq Require Import String Ascii List Bool Arith.
Import ListNotations.
Open Scope string_scope.
Open Scope list_scope.
Open Scope nat_scope.

(** A place in the file: line and offset *)
Definition place := (nat * nat)%type.

(** What the tokenizer finds: a word (an unquoted word, or strings joined by plus signs), a
    brace, a semicolon, or a comment with its text and the marks [is_line_end] and
    [is_multi_line]. Comments are delivered only if the context keeps them. *)
Inductive tok :=
| Word (pieces : list (string * bool))   (* each with: is it quoted *)
| Open | Close | Semi
| Comment (text : string) (line_end multi : bool).
(** A token with the places where it begins and where it ends *)
Record token := Token { t_tok : tok; t_from : place; t_to : place }.

(** The exceptions: [error.Abort] after an error was noted (with its tag), and [error.Eof] *)
Inductive perr := Abort (tag : string) | Eof | Fuel.
Inductive pres (A : Type) := POk (a : A) | PErr (e : perr).
Arguments POk {A}.
Arguments PErr {A}.
Definition pbind {A B} (x : pres A) (f : A -> pres B) : pres B := match x with POk a => f a | PErr e => PErr e end.

(** The state: the tokens left, the place of the tokenizer ([pos.line], [tokenizer.offset]),
    [self.last_line] and [tokenizer.is_1_1] (with [strict_quoting], which is always set with
    it; which words are legal does not concern this file). *)
Record pst := PSt { p_toks : list token; p_at : place; p_last : nat; p_1_1 : bool }.

(** A statement: keyword ([_comment] for comments), argument, the line of its position,
    [first_line], [last_line], [is_line_end] and [is_multi_line] of comments, substatements.
    [arg_substrings], [top] and [parent] are left out. *)
Inductive stmt := Stmt (keyword : string) (arg : option string) (line : nat) (first last : place) (marks : option (bool * bool)) (kids : list stmt).

(** [tokenizer.peek]: the next token, after the blanks before it have been skipped *)
Definition peek (st : pst) : pres (tok * pst) :=
  match p_toks st with
  | [] => PErr Eof
  | t :: _ => POk (t_tok t, PSt (p_toks st) (t_from t) (p_last st) (p_1_1 st))
  end.
(** [tokenizer.skip_tok] and the end of the other calls: the token is behind *)
Definition skip_tok (st : pst) : pst :=
  match p_toks st with
  | [] => st
  | t :: r => PSt r (t_to t) (p_last st) (p_1_1 st)
  end.
(** [tokenizer.get_keyword]: a word that is one identifier, not quoted. [ident] says which
    words are. *)
Definition get_keyword (ident : string -> bool) (st : pst) : pres (string * pst) :=
  match p_toks st with
  | [] => PErr Eof
  | t :: _ => match t_tok t with
              | Word [(w, false)] => if ident w then POk (w, skip_tok st) else PErr (Abort "SYNTAX_ERROR")
              | _ => PErr (Abort "SYNTAX_ERROR")
              end
  end.
(** [tokenizer.get_strings] *)
Definition get_strings (st : pst) : pres (list (string * bool) * pst) :=
  match p_toks st with
  | [] => PErr Eof
  | t :: _ => match t_tok t with
              | Word l => POk (l, skip_tok st)
              | _ => PErr (Abort "SYNTAX_ERROR")
              end
  end.
Definition set_last (st : pst) : pst := PSt (p_toks st) (p_at st) (fst (p_at st)) (p_1_1 st).

Section Parser.
  Variable ident : string -> bool.
  (** [ctx.keep_comments] *)
  Variable keep : bool.

  (** The comment in front, if comments are kept; lines 212-231 *)
  Definition get_comment (st : pst) : option (string * bool * bool) * pst :=
    if keep then match p_toks st with
                 | t :: _ => match t_tok t with
                             | Comment c e m => (Some (c, e, m), skip_tok st)
                             | _ => (None, st)
                             end
                 | [] => (None, st)
                 end
    else (None, st).

  (** The flags of YANG 1.1, lines 243-245 *)
  Definition version (kw : string) (arg : option string) (st : pst) : pst :=
    if andb (String.eqb kw "yang-version") (match arg with Some a => String.eqb a "1.1" | None => false end)
    then PSt (p_toks st) (p_at st) (p_last st) true else st.

  (** From the keyword on, lines 233-273; [loop] reads the substatements and the brace behind
      them. *)
  Definition statement (loop : pst -> pres (list stmt * pst)) (first : place) (st0 : pst) : pres (stmt * pst) :=
    pbind (get_keyword ident st0) (fun '(kw, st1) =>
    pbind (peek st1) (fun '(t, st2) =>
    pbind (match t with
           | Open | Semi => POk (None, st2)
           | _ => pbind (get_strings st2) (fun '(l, st3) => POk (Some (String.concat "" (map fst l)), st3))
           end) (fun '(arg, st3) =>
    let st4 := version kw arg st3 in
    pbind (peek st4) (fun '(t, st5) =>
    pbind (match t with
           | Open => loop (set_last (skip_tok st5))
           | Semi => POk ([], skip_tok st5)
           | _ => PErr (Abort "INCOMPLETE_STATEMENT")
           end) (fun '(kids, st6) =>
    let st7 := set_last st6 in
    POk (Stmt kw arg (fst (p_at st4)) first (p_last st7, snd (p_at st7)) None kids, st7)))))).

  (** [_parse_statement], __init__.py:206-273; [inner]: is there a parent. The fuel bounds the
      depth of the recursion and the number of substatements; ParseP.v shows how much is
      enough. *)
  Fixpoint parse (fuel : nat) (inner : bool) (st : pst) : pres (stmt * pst) :=
    match fuel with
    | 0 => PErr Fuel
    | S n =>
        match get_comment st, inner with
        | (Some (c, e, m), st1), true =>
            POk (Stmt "_comment" (Some c) (fst (p_at st1)) (p_at st) (p_last st1, snd (p_at st1)) (Some (e, m)) [], st1)
        | (_, st1), _ => statement (kids_of n) (p_at st) st1
        end
    end
  (** The loop over substatements, lines 255-258 *)
  with kids_of (fuel : nat) (st : pst) : pres (list stmt * pst) :=
    match fuel with
    | 0 => PErr Fuel
    | S n =>
        pbind (peek st) (fun '(t, st) =>
        match t with
        | Close => POk ([], skip_tok st)
        | _ => pbind (parse n true st) (fun '(s, st) =>
               pbind (kids_of n st) (fun '(l, st) => POk (s :: l, st)))
        end)
    end.

  (** The parser at the beginning of a file; [error.Position.__init__], line 183: line 0 *)
  Definition read (toks : list token) : pres (stmt * pst) :=
    parse (S (length toks)) false (PSt toks (0, 0) 0 false).
End Parser.

(** [Position.label] with [__str__], __init__.py:189-200; the position of a [uses] may have one
    itself. [base] is [os.path.basename]. *)
Inductive position := Position (ref line : string) (uses : option position).
Fixpoint label (p : position) : string :=
  let '(Position ref line u) := p in
  match u with
  | None => (ref ++ ":" ++ line)%string
  | Some q => (label q ++ " (at " ++ ref ++ ":" ++ line ++ ")")%string
  end.
Definition label_with (base : string -> string) (basename : bool) (p : position) : string :=
  let '(Position ref line u) := p in
  let ref := if basename then base ref else ref in
  match u with
  | None => (ref ++ ":" ++ line)%string
  | Some q => (label q ++ " (at " ++ ref ++ ":" ++ line ++ ")")%string
  end.
