(** C92: data put into string literals by user scripts. *)
From Coq Require Import List ZArith Bool Lia.
From Verif Require Import M_Base M_Fold M_Token M_Str S_Num S_Str S_Token L_Str P_Token M_Contents.
Import ListNotations.
Open Scope Z_scope.

Lemma contents_eq isdigit b s : bytes_to_string_contents isdigit b s = Ok (escape_body isdigit k_char_escapes_rev_min 39 s).
Proof.
  unfold bytes_to_string_contents, format_string_literal, format_quoted, M_Charset.decode_p8str. cbn [bind Z.eqb skipn].
  replace (if b then s else s) with s by now destruct b. change (34 =? 34) with true. cbn [skipn]. now rewrite removelast_last.
Qed.
Lemma contents_then isdigit (Hd : ascii_isdigit isdigit) lang after v' : quoted lang 34 after v' ->
  forall s, (starts (is_digit 10) after -> forall x, s <> x ++ [0]) ->
  quoted lang 34 (escape_body isdigit k_char_escapes_rev_min 39 s ++ after) (s ++ v').
Proof.
  intros Q. induction s as [|c s IH]; intros H; [exact Q|]. cbn [escape_body].
  assert (IH' := IH (fun K x E => H K (c :: x) (f_equal (cons c) E))). clear IH. rewrite <- app_assoc. set (body := escape_body _ _ _ s) in *.
  destruct (assoc_str c k_char_escapes_rev_min) as [e|] eqn:A.
  2:{ cbn [app]. apply q_plain; [| | | |exact IH']; intros ->; discriminate A. }
  destruct (Z.eqb_spec c 39) as [->|N]; [cbn [app]; apply q_plain; try lia; exact IH'|].
  assert (D : forall n, 0 <= n < 128 -> isdigit n = (48 <=? n) && (n <=? 57)) by exact Hd.
  cbn [assoc_str k_char_escapes_rev_min] in A.
  repeat match type of A with context [Z.eqb ?a c] => destruct (Z.eqb_spec a c) as [<-|?] end; try discriminate A; try lia; injection A as <-; cbn [forallb].
  1-4: rewrite D by lia; cbn [andb Z.leb Z.compare Pos.compare Pos.compare_cont app]; apply q_named; [cbn; tauto|exact IH'].
  rewrite D by lia. cbn [andb Z.leb Z.compare Pos.compare Pos.compare_cont].
  assert (B0 : forall d, Forall (is_digit 10) d -> digits_value 10 0 d = 0 -> (1 <= length d <= 3)%nat -> (length d = 3%nat \/ ~ starts (is_digit 10) (body ++ after)) ->
    quoted lang 34 (92 :: d ++ body ++ after) (0 :: s ++ v')).
  { intros d F V L X. pose proof (q_decimal lang 34 d (body ++ after) (s ++ v') F L X ltac:(lia) IH') as K. rewrite V in K. destruct lang; exact K. }
  assert (Z0 : is_digit 10 48) by (split; cbn; lia).
  destruct (next_is isdigit s) eqn:NX.
  - change (quoted lang 34 (92 :: [48; 48; 48] ++ body ++ after) (0 :: s ++ v')). apply B0; [repeat (constructor; [exact Z0|]); constructor|reflexivity|cbn; lia|now left].
  - apply (B0 [48]); [constructor; [exact Z0|constructor]|reflexivity|cbn; lia|]. right. intros K. destruct s as [|d s].
    + apply (H K []). reflexivity.
    + assert (S' : starts (is_digit 10) body).
      { destruct K as (x & t & E & X). destruct body as [|y body'] eqn:E2; [|injection E as -> _; exists x, body'; auto].
        exfalso. subst body. cbn [escape_body] in E2. destruct (assoc_str d _); [destruct (d =? 39)|]; discriminate E2. }
      apply (escape_body_start isdigit Hd) in S'; [congruence|now right].
Qed.

(** Any data, turned into the contents of a string and put between double quotes, is a literal for those data; the tool reads it as them. *)
Theorem C92_contents : forall isdigit, ascii_isdigit isdigit -> forall lang is_bytes data,
  exists text, bytes_to_string_contents isdigit is_bytes data = Ok text /\
    quoted_literal lang (34 :: text ++ [34]) data /\ parse_string_literal lang (34 :: text ++ [34]) = Ok data /\ one_token lang (34 :: text ++ [34]).
Proof.
  intros isdigit Hd lang b data. rewrite contents_eq. eexists. split; [reflexivity|].
  destruct (C32_quoted_roundtrip isdigit Hd lang true true (Some 34) data ltac:(tauto)) as (text & E & H).
  unfold format_string_literal, format_quoted in E. change (34 =? 34) with true in E. assert (T := f_equal (fun r => match r with Ok t => t | Err _ => [] end) E). cbn beta iota in T. subst text. exact H.
Qed.
(** The same in a literal that goes on before and after, unless a digit follows data that end with a zero byte; *)
Theorem C92_inside : forall isdigit, ascii_isdigit isdigit -> forall lang is_bytes data before after v',
  Forall (fun c => c <> 10 /\ c <> 13 /\ c <> 92 /\ c <> 34) before -> quoted lang 34 after v' ->
  (starts (is_digit 10) after -> forall x, data <> x ++ [0]) ->
  exists text, bytes_to_string_contents isdigit is_bytes data = Ok text /\ quoted lang 34 (before ++ text ++ after) (before ++ data ++ v').
Proof.
  intros isdigit Hd lang b data before after v' F Q H. rewrite contents_eq. eexists. split; [reflexivity|].
  induction F as [|c before (A & B & C & D) F IH]; [cbn [app]; now apply contents_then|]. cbn [app]. now apply q_plain.
Qed.
(** then the two are read as one number: with the data, a zero byte, before the digit 7, the literal "\07" is the character 7. *)
Theorem C92_inside_refuted : forall isdigit, ascii_isdigit isdigit -> forall lang, quoted lang 34 [55] [55] /\
  exists text, bytes_to_string_contents isdigit true [0] = Ok text /\ parse_string_literal lang (34 :: text ++ [55; 34]) = Ok [7].
Proof.
  intros isdigit Hd lang. split; [apply q_plain; try lia; constructor|]. rewrite contents_eq. eexists. split; [reflexivity|].
  cbn [escape_body assoc_str k_char_escapes_rev_min Z.eqb Pos.eqb forallb next_is app]. rewrite andb_false_r. destruct lang; reflexivity.
Qed.

(** Cases: a quote, a zero, a digit, a newline, and a byte that is no text; with text around. *)
Example ex_contents : let d c := (48 <=? c) && (c <=? 57) in ascii_isdigit d /\ bytes_to_string_contents d true [34; 0; 49; 10; 200] = Ok [92; 34; 92; 48; 48; 48; 49; 92; 110; 200].
Proof. split; [intros c _|]; reflexivity. Qed.
Example ex_inside : Forall (fun c => c <> 10 /\ c <> 13 /\ c <> 92 /\ c <> 34) [97; 49] /\ quoted Pico8 34 [55; 92; 110] [55; 10] /\
  (starts (is_digit 10) [55; 92; 110] -> forall x, [0; 1] <> x ++ [0]).
Proof.
  split; [repeat constructor; lia|]. split; [apply q_plain; try lia; apply q_named; [cbn; tauto|constructor]|].
  intros _ [|a [|b [|c x]]] E; discriminate E.
Qed.
Print Assumptions C92_contents.
Print Assumptions C92_inside.
Print Assumptions C92_inside_refuted.
