(** Token and string literal properties: C32, C33, C34, C59, C60. *)
From Verif Require Import M_Base M_Fold M_Token M_Str S_Num S_Str S_Token L_Str L_TokenSeq L_TokenTotal.
Open Scope Z_scope.

(** [str.isdigit] is only needed on ASCII. *)
Definition ascii_isdigit (isdigit : Z -> bool) : Prop :=
  forall c, 0 <= c < 128 -> isdigit c = (48 <=? c) && (c <=? 57).

(** C32: a string printed in quotes denotes the same string, the tool's parser reads it back
    and the tokenizer sees one token, whatever follows. *)
Theorem C32_quoted_roundtrip : forall isdigit, ascii_isdigit isdigit -> forall lang ctrl complex quote v,
  (quote = None \/ quote = Some 34 \/ quote = Some 39) ->
  exists text, format_string_literal isdigit ctrl complex (Some false) quote v = Ok text /\
    quoted_literal lang text v /\ parse_string_literal lang text = Ok v /\ one_token lang text.
Proof.
  intros isdigit Hd lang ctrl complex quote v Hq.
  pose proof (format_quoted_ok isdigit Hd lang ctrl quote v Hq) as [Q1 Q2].
  eexists. split; [reflexivity|]. split; [exact Q1|]. split; [exact Q2|]. eapply quoted_one_token. exact Q1.
Qed.

(** C33: the same for every way of printing a string, except that a string printed in long
    brackets must not end with the beginning of its own closing bracket. *)
Theorem C33_any_literal_partial : forall isdigit, ascii_isdigit isdigit -> forall lang ctrl complex long quote v,
  (quote = None \/ quote = Some 34 \/ quote = Some 39) ->
  exists text, format_string_literal isdigit ctrl complex long quote v = Ok text /\
    ((long = Some false \/ forall n x, level v n -> v <> x ++ 93 :: repeat 61 n) ->
     (quoted_literal lang text v \/ long_literal text v) /\ parse_string_literal lang text = Ok v /\ one_token lang text).
Proof. exact format_literal_ok. Qed.

(** A literal in long brackets is read as its value. *)
Theorem C33_long_read : forall lang text v, long_literal text v ->
  parse_string_literal lang text = Ok v /\ one_token lang text.
Proof. intros lang text v H. split; [apply long_parsed|eapply long_one_token]; exact H. Qed.

(** The exception is real: by default the valid literal [=[a]]=] is rewritten to [[a]]], which
    is the literal [[a]] and a stray bracket; and when minifying for characters the same
    happens to a literal written in quotes. *)
Theorem C33_long_refuted : forall isdigit, ascii_isdigit isdigit -> forall lang version,
  (exists src v, long_literal src v /\ parse_string_literal lang src = Ok v /\
     exists text, minify_string_literal isdigit false version src v = Ok text /\
       tokenize lang text = Ok [Tok TString [91; 91; 97; 93; 93]; Tok TPunct [93]]) /\
  (exists src v, quoted_literal lang src v /\ parse_string_literal lang src = Ok v /\
     exists text, minify_string_literal isdigit true version src v = Ok text /\
       tokenize lang text = Ok [Tok TString [91; 91; 92; 92; 92; 93; 93]; Tok TPunct [93]]).
Proof.
  intros isdigit Hd lang version. split.
  - exists [91; 61; 91; 97; 93; 93; 61; 93], [97; 93].
    assert (L : long_literal [91; 61; 91; 97; 93; 93; 61; 93] [97; 93]).
    { exists 1%nat, [97; 93]. split; [reflexivity|]. split; [cbn; intuition discriminate|]. split; [|right; split; [reflexivity|discriminate]].
      intros x y E. cbn in E. destruct x as [|? x]; [discriminate E|injection E as _ E].
      destruct x as [|? x]; [discriminate E|injection E as _ E].
      destruct x as [|? x]; [injection E as E; symmetry; exact E|injection E as _ E].
      destruct x as [|? x]; [discriminate E|injection E as _ E].
      destruct x as [|? x]; [discriminate E|injection E as _ E]. destruct x; discriminate E. }
    split; [exact L|]. split; [apply long_parsed; exact L|].
    eexists. split; [reflexivity|]. destruct lang; reflexivity.
  - exists [34; 92; 92; 92; 92; 92; 92; 93; 34], [92; 92; 92; 93].
    assert (Q : quoted_literal lang [34; 92; 92; 92; 92; 92; 92; 93; 34] [92; 92; 92; 93]).
    { exists 34, [92; 92; 92; 92; 92; 92; 93]. split; [auto|]. split; [reflexivity|].
      do 3 (apply q_named; [cbn; tauto|]). apply q_plain; try discriminate. apply q_end. }
    split; [exact Q|]. split; [destruct lang; reflexivity|].
    exists [91; 91; 92; 92; 92; 93; 93; 93]. split; [|destruct lang; reflexivity].
    unfold minify_string_literal. destruct (40 <=? version); unfold format_string_literal, format_quoted;
      cbn; rewrite !Hd by lia; reflexivity.
Qed.

(** C34: printing tokens with as little whitespace as possible.  Whatever the tokens, the
    printer does not get stuck, and tokenizing its output gives exactly these tokens; where it
    omits the whitespace between two tokens, they do not fuse, and where it prints it, they
    would. *)
Theorem C34_printed_tokens : forall lang items, Forall (fun x => lexeme lang (o_tok x)) items -> glued_apart lang None items ->
  exists out, output_tokens lang items = Ok out /\ tokenize lang out = Ok (map o_tok items).
Proof. exact printed_tokens. Qed.
Theorem C34_whitespace_exact : forall lang p t, lexeme lang p -> lexeme lang t ->
  exists b, need_whitespace_between lang p t = Ok b /\
    (b = false <-> tokenize lang (tok_value p ++ tok_value t) = Ok [p; t]).
Proof. exact space_needed. Qed.
(** Reprinting the tokens of a program, keeping tokens together that stood together. *)
Theorem C34_reprinted_source : forall lang src l items, tokenize_pos lang src = Ok l -> Forall (fun x => snd x <> TErr) l ->
  glued_adjacent None l items -> exists out, output_tokens lang items = Ok out /\ tokenize lang out = Ok (map snd l).
Proof. exact printed_source. Qed.

(** C59: a literal in quotes is read as the string it denotes ... *)
Theorem C59_quoted_read_partial : forall lang text v, quoted_literal lang text v ->
  (forall x w q, text = x ++ 92 :: 122 :: w ++ [q] -> ~ Forall space w) -> parse_string_literal lang text = Ok v.
Proof. exact quoted_parsed. Qed.
(** ... and is one token ... *)
Theorem C59_quoted_token : forall lang text v, quoted_literal lang text v -> one_token lang text.
Proof. exact quoted_one_token. Qed.
(** ... but if it ends with a whitespace-skipping escape, reading it raises an exception. *)
Theorem C59_quoted_read_refuted : forall lang, exists text v, quoted_literal lang text v /\
  tokenize lang text = Ok [Tok TString text] /\ parse_string_literal lang text = Err EType.
Proof.
  intros lang. exists [34; 97; 92; 122; 34], [97]. split.
  - exists 34, [97; 92; 122]. split; [auto|]. split; [reflexivity|]. apply q_plain; try discriminate.
    apply (q_skip lang 34 [] [] []); [constructor| |apply q_end]. intros [c [t [K _]]]. discriminate K.
  - split; destruct lang; reflexivity.
Qed.

(** C60: tokenizing terminates, unless the text ends with backslash, z and whitespace ... *)
Theorem C60_tokenize_terminates_partial : forall lang s, ~ final_skip s -> exists l, tokenize lang s = Ok l.
Proof.
  intros lang s H. destruct (tokenize lang s) as [l|e] eqn:E; [eauto|].
  exfalso. apply H. eapply tokenize_hang; [apply le_n|exact E].
Qed.
(** ... where it loops when the text is in an unfinished string. *)
Theorem C60_tokenize_terminates_refuted : forall lang, exists s, tokenize lang s = Err EFuel.
Proof. intros lang. exists [34; 92; 122]. destruct lang; reflexivity. Qed.
(** A token's text is the source's text at the token's position, also in programs with
    errors; without errors the tokens do not overlap. *)
Theorem C60_tokens_in_source : forall lang s l, tokenize_pos lang s = Ok l ->
  (forall p ty v, In (p, Tok ty v) l -> exists x y, s = x ++ v ++ y /\ p = length x) /\
  (Forall (fun x => snd x <> TErr) l -> forall l1 p ty v q t l2, l = l1 ++ (p, Tok ty v) :: (q, t) :: l2 ->
   (p + length v <= q)%nat).
Proof.
  intros lang s l E. split.
  - intros p ty v Hin. exact (pos_text _ _ _ _ _ _ _ _ E Hin).
  - intros Hf l1 p ty v q t l2 ->. exact (pos_order _ _ _ _ _ _ _ _ _ E Hf).
Qed.

(** The hypotheses are met. *)
Example isdigit_example : ascii_isdigit (fun c => (48 <=? c) && (c <=? 57) || (c =? 178)).
Proof. intros c H. lia. Qed.
(* a value with a zero byte before a digit, a quote, a newline and a backslash *)
Example C32_example : format_string_literal (fun c => (48 <=? c) && (c <=? 57)) true true (Some false) None [0; 49; 34; 10; 92]
  = Ok [39; 92; 48; 48; 48; 49; 34; 92; 110; 92; 92; 39].
Proof. reflexivity. Qed.
(* x=a-- b : the tokens a and -, - and - must stay apart *)
Definition ex_items : list out_item :=
  [mkout (Tok TIdent [120]) false false false; mkout (Tok TPunct [61]) true false false;
   mkout (Tok TIdent [97]) false false false; mkout (Tok TPunct [45]) false false false;
   mkout (Tok TPunct [45]) false false false; mkout (Tok TIdent [98]) true false false;
   mkout (Tok TIdent [99]) false true false].
Example C34_example : Forall (fun x => lexeme Pico8 (o_tok x)) ex_items /\ glued_apart Pico8 None ex_items /\
  output_tokens Pico8 ex_items = Ok [120; 61; 97; 45; 32; 45; 98; 10; 99].
Proof.
  split; [repeat (apply Forall_cons; [split; [discriminate|reflexivity]|]); apply Forall_nil|].
  split; [|reflexivity]. unfold ex_items. cbn -[tokenize]. repeat split; discriminate.
Qed.
Example C34_source_example : exists l, tokenize_pos Picotron [97; 61; 49; 32; 47; 47; 50] = Ok l /\
  Forall (fun x => snd x <> TErr) l /\
  glued_adjacent None l (map (fun x => mkout (snd x) (Nat.eqb (fst x) 1) false false) l).
Proof.
  eexists. split; [reflexivity|]. split; [repeat (apply Forall_cons; [discriminate|]); apply Forall_nil|].
  cbn. repeat split; discriminate.
Qed.
Example C59_example : quoted_literal Pico8 [39; 92; 54; 53; 92; 122; 32; 98; 92; 120; 52; 65; 39] [65; 98; 74].
Proof.
  exists 39, [92; 54; 53; 92; 122; 32; 98; 92; 120; 52; 65]. split; [auto|]. split; [reflexivity|].
  apply (q_decimal Pico8 39 [54; 53]); [repeat (apply Forall_cons; [split; cbn; lia|]); apply Forall_nil|cbn; lia| |cbn; lia|].
  { right. intros [c [t [K [H _]]]]. assert (c = 92) by congruence. subst. cbn in H. lia. }
  apply (q_skip Pico8 39 [32] [98; 92; 120; 52; 65]); [repeat constructor| |].
  { intros [c [t [K H]]]. assert (c = 98) by congruence. subst. unfold space in H. lia. }
  apply q_plain; try discriminate. apply (q_hex Pico8 39 52 65); [split; cbn; lia..|apply q_end].
Qed.
Example C60_example : ~ final_skip [97; 92; 122; 98].
Proof.
  intros H. eapply (final_skip_last _ [97; 92; 122] 98) in H; [|reflexivity]. unfold space in H. lia.
Qed.

Print Assumptions C32_quoted_roundtrip.
Print Assumptions C33_any_literal_partial.
Print Assumptions C33_long_read.
Print Assumptions C33_long_refuted.
Print Assumptions C34_printed_tokens.
Print Assumptions C34_whitespace_exact.
Print Assumptions C34_reprinted_source.
Print Assumptions C59_quoted_read_partial.
Print Assumptions C59_quoted_token.
Print Assumptions C59_quoted_read_refuted.
Print Assumptions C60_tokenize_terminates_partial.
Print Assumptions C60_tokenize_terminates_refuted.
Print Assumptions C60_tokens_in_source.
