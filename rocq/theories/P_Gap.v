(** C91: the tokens of a program, the lines they are on and what stands between them. *)
From Coq Require Import List ZArith Bool Lia.
From Verif Require Import M_Base L_Util M_Fold M_Token S_Token M_Expr M_Stmt M_Lines L_Token L_TokenSeq L_Lines L_Pipe S_Gap.
Import ListNotations.
Open Scope Z_scope.

Lemma gap_app lang g n g' n' : gap lang g n -> gap lang g' n' -> gap lang (g ++ g') (n + n').
Proof.
  induction 1; intros G; cbn [app].
  - exact G.
  - apply gap_space; auto.
  - rewrite <- Z.add_assoc. apply gap_break. auto.
  - rewrite <- app_assoc, <- Z.add_assoc. apply gap_line; auto.
  - rewrite <- app_assoc. apply gap_block; auto.
Qed.
Lemma lined_gap lang line g n s ts : gap lang g n -> lined_up lang (line + n) s ts -> lined_up lang line (g ++ s) ts.
Proof.
  intros G L. inversion L as [g' n' G'|g' n' c G' C|g' n' t rest ts' G' Lx R]; subst.
  - eapply up_end, gap_app; eauto.
  - rewrite app_assoc. eapply up_comment; [|eassumption]. eapply gap_app; eauto.
  - rewrite app_assoc, <- Z.add_assoc. apply up_token; [now apply gap_app|assumption|]. now rewrite Z.add_assoc.
Qed.
Lemma skip_line_spec : forall s, (~ In 10 s /\ skip_line s = []) \/ exists x, ~ In 10 x /\ s = x ++ 10 :: skip_line s.
Proof.
  induction s as [|c s IH]; cbn [skip_line]; [left; auto|]. destruct (Z.eqb_spec c 10) as [->|N].
  - right. exists []. auto.
  - destruct IH as [[A B]|[x [A B]]]; [left|right].
    + split; [|exact B]. intros [K|K]; auto.
    + exists (c :: x). split; [intros [K|K]; auto|]. cbn [app]. now rewrite <- B.
Qed.
Lemma line_rest lang m s line ts : mark lang m -> (m = [45; 45] -> forall k x, s <> 91 :: repeat 61 k ++ 91 :: x) ->
  lined_up lang (line + 1) (skip_line s) ts -> (skip_line s = [] -> ts = []) -> lined_up lang line (m ++ s) ts.
Proof.
  intros M N L E. destruct (skip_line_spec s) as [[A B]|[x [A B]]].
  - rewrite (E B). change (m ++ s) with ([] ++ m ++ s). apply up_comment with (n := 0); [constructor|]. exists s, m. auto.
  - set (e := skip_line s) in *. clearbody e. subst s. change (m ++ x ++ 10 :: e) with (m ++ x ++ [10] ++ e). rewrite !app_assoc.
    apply lined_gap with (n := 1); [|exact L]. replace 1 with (1 + 0) by lia. rewrite <- app_assoc. change ([10]) with (10 :: @nil Z). rewrite app_assoc. apply gap_line; [|constructor].
    exists x, m. repeat split; auto. intros Em k y K. apply (N Em k (y ++ 10 :: e)). rewrite K. cbn [app]. now rewrite <- app_assoc.
Qed.
Lemma span_eq61 : forall t pad u, span (Z.eqb 61) t = (pad, u) -> t = pad ++ u /\ pad = repeat 61 (length pad) /\ (forall r, u <> 61 :: r).
Proof.
  induction t as [|c t IH]; intros pad u E; cbn [span] in E; [injection E as <- <-; repeat split; discriminate|].
  destruct (Z.eqb_spec 61 c) as [<-|N].
  - destruct (span (Z.eqb 61) t) as [a b] eqn:S. injection E as <- <-. destruct (IH a b eq_refl) as (A & B & C).
    repeat split; [cbn [app]; now rewrite A at 1|cbn [length repeat]; now rewrite B at 1|exact C].
  - injection E as <- <-. repeat split. intros r [= K]. congruence.
Qed.
Lemma pad_inj : forall k pad u v, (forall r, u <> 61 :: r) -> repeat 61 k ++ 91 :: v = pad ++ u -> pad = repeat 61 (length pad) -> pad = repeat 61 k /\ u = 91 :: v.
Proof.
  induction k as [|k IH]; intros [|p pad] u v N E P; cbn [repeat app length] in *.
  - auto.
  - injection P as -> _. discriminate E.
  - exfalso. now apply (N _ (eq_sym E)).
  - injection E as <- E. injection P as P. destruct (IH pad u v N E P). subst. auto.
Qed.
Lemma prefix_app p s : is_prefix p s = true -> exists r, s = p ++ r.
Proof. apply is_prefix_iff. Qed.
Lemma prefix_self p r : is_prefix p (p ++ r) = true.
Proof. apply is_prefix_iff. now exists r. Qed.
(** the first occurrence *)
Lemma find_first : forall pat s a b, find_sub pat s = Some (a, b) -> s = a ++ pat ++ b /\ forall x y, a ++ pat ++ b = x ++ pat ++ y -> (length a <= length x)%nat.
Proof.
  intros pat. induction s as [|c s IH]; intros a b E; cbn [find_sub] in E.
  - destruct (is_prefix pat []) eqn:P; [|discriminate]. injection E as <- <-. split; [now apply is_prefix_skip|cbn; intros; lia].
  - destruct (is_prefix pat (c :: s)) eqn:P.
    + injection E as <- <-. split; [now apply is_prefix_skip|cbn; intros; lia].
    + destruct (find_sub pat s) as [[a' b']|] eqn:F; [|discriminate]. injection E as <- <-. destruct (IH a' b' eq_refl) as [A B]. split; [cbn [app]; now rewrite <- A|].
      intros [|z x] y K; [|cbn [app length] in *; injection K as _ K; apply B in K; lia].
      exfalso. cbn [app] in K. rewrite <- A in K. rewrite K, prefix_self in P. discriminate.
Qed.
Lemma long_ok t v i r : scan_long t = LOk v i r -> exists c, block_text c i /\ [45; 45] ++ t = c ++ r.
Proof.
  unfold scan_long. destruct t as [|c t]; [discriminate|]. destruct (Z.eq_dec c 91) as [->|N].
  2:{ intros E. exfalso. destruct c as [|p|p]; try discriminate E. repeat (destruct p as [p|p|]; try discriminate E). now apply N. }
  destruct (span (Z.eqb 61) t) as [pad u] eqn:S. apply span_eq61 in S as (A & B & C). destruct u as [|d u]; [discriminate|].
  destruct (Z.eq_dec d 91) as [->|N].
  2:{ intros E. exfalso. destruct d as [|p|p]; try discriminate E. repeat (destruct p as [p|p|]; try discriminate E). now apply N. }
  destruct (find_sub (93 :: pad ++ [93]) u) as [[inner rest]|] eqn:F; [|discriminate]. intros [= _ <- <-]. apply find_first in F as [F1 F2].
  exists ([45; 45; 91] ++ pad ++ [91] ++ inner ++ [93] ++ pad ++ [93]). split.
  - exists (length pad). rewrite <- B. split; [reflexivity|]. intros x y K. destruct y as [|z y]; [reflexivity|]. exfalso.
    assert (K' : inner ++ (93 :: pad ++ [93]) ++ rest = x ++ (93 :: pad ++ [93]) ++ (z :: y) ++ rest).
    { cbn [app] in *. rewrite <- !app_assoc. cbn [app]. transitivity ((inner ++ 93 :: pad ++ [93]) ++ rest); [now rewrite <- app_assoc; cbn [app]; rewrite <- app_assoc|].
      rewrite K. rewrite <- !app_assoc. cbn [app]. rewrite <- !app_assoc. reflexivity. }
    apply F2 in K'. apply (f_equal (@length Z)) in K. repeat (rewrite app_length in K || cbn [length app] in K). lia.
  - rewrite A, F1. cbn [app]. rewrite <- !app_assoc. cbn [app]. rewrite <- !app_assoc. cbn [app]. rewrite <- !app_assoc. reflexivity.
Qed.
Lemma long_no t r : scan_long t = LNo r -> forall k x, t <> 91 :: repeat 61 k ++ 91 :: x.
Proof.
  intros E k x ->. cbn [scan_long] in E. destruct (span (Z.eqb 61) (repeat 61 k ++ 91 :: x)) as [pad u] eqn:S. apply span_eq61 in S as (A & B & C).
  destruct (pad_inj k pad u x C A B) as [-> ->]. destruct (find_sub _ x) as [[? ?]|]; discriminate E.
Qed.

Lemma round_gap : forall lang ch t r line ts, tok_round lang ch t = Round [] r -> lined_up lang (line + vline_step lang ch t) r ts -> (r = [] -> ts = []) ->
  lined_up lang line (ch :: t) ts.
Proof.
  intros lang ch t r line ts E L N. unfold tok_round in E. unfold vline_step in L. destruct (mem ch k_wspace) eqn:W.
  { injection E as <-. change (ch :: t) with ([ch] ++ t). apply lined_gap with (n := if ch =? 10 then 1 else 0); [|exact L].
    destruct (Z.eqb_spec ch 10) as [->|N10]; [apply (gap_break lang [] 0); constructor|].
    apply gap_space; [|constructor]. unfold mem, k_wspace in W. cbn [existsb] in W.
    destruct (Z.eqb_spec 32 ch), (Z.eqb_spec 9 ch), (Z.eqb_spec 13 ch), (Z.eqb_spec 10 ch), (Z.eqb_spec ch 32), (Z.eqb_spec ch 9), (Z.eqb_spec ch 13); try lia; try discriminate W. }
  destruct (is_dec_digit ch || ((ch =? 46) && next_is is_dec_digit t)); [destruct (scan_number lang (ch :: t)); discriminate|].
  destruct (is_ident_char lang ch); [destruct (span (is_ident_char lang) (ch :: t)); discriminate|].
  destruct ((ch =? 34) || (ch =? 39)); [destruct (scan_string ch MText t); discriminate|].
  destruct ((ch =? 91) && next_is (fun c => mem c [61; 91]) t); [destruct (scan_long (ch :: t)); discriminate|].
  destruct ((ch =? 45) && next_is (Z.eqb 45) t) eqn:D.
  { apply andb_prop in D as [D1 D2]. apply Z.eqb_eq in D1. subst ch. destruct t as [|d t]; [discriminate D2|]. cbn [next_is] in D2. apply Z.eqb_eq in D2. subst d. cbn [skipn] in *.
    destruct (scan_long t) as [v i r'|r'|r'] eqn:S; [| discriminate |].
    - injection E as ->. apply long_ok in S as (c & B & K). change (45 :: 45 :: t) with ([45; 45] ++ t). rewrite K. apply lined_gap with (n := 0); [|exact L].
      rewrite <- (app_nil_r c). apply gap_block; [now exists i|constructor].
    - injection E as <-. change (45 :: 45 :: t) with ([45; 45] ++ t). apply line_rest; [constructor|intros _; eapply long_no; eassumption|exact L|exact N]. }
  destruct ((ch =? 47) && is_pico8 lang && next_is (Z.eqb 47) t) eqn:C.
  { apply andb_prop in C as [C C3]. apply andb_prop in C as [C1 C2]. apply Z.eqb_eq in C1. subst ch. destruct t as [|d t]; [discriminate C3|]. cbn [next_is] in C3. apply Z.eqb_eq in C3. subst d. cbn [skipn] in *.
    injection E as <-. change (47 :: 47 :: t) with ([47; 47] ++ t). apply line_rest; [constructor; destruct lang; [reflexivity|discriminate]|discriminate|exact L|exact N]. }
  destruct (mem ch punct_chars); [destruct (scan_punct lang ch t); discriminate|].
  destruct ((ch =? 33) && next_is (Z.eqb 61) t); discriminate.
Qed.

Lemma all_lined : forall n lang line s ts, tok_loop_lines n lang line s = Ok ts -> Forall (lexeme lang) (map fst ts) -> lined_up lang line s ts.
Proof.
  induction n as [|n IH]; intros lang line [|ch t] ts E F; cbn [tok_loop_lines] in E; try discriminate E.
  1,2: apply Ok_inj in E; subst; apply (up_end lang line [] 0); constructor.
  destruct (tok_round lang ch t) as [a r|] eqn:R; [|discriminate E].
  destruct (tok_loop_lines n lang (line + vline_step lang ch t) r) as [b|] eqn:L; [|discriminate E]. cbn [bind] in E. apply Ok_inj in E. subst ts.
  rewrite map_app, Forall_app in F. destruct F as [Fa Fb]. pose proof (IH _ _ _ _ L Fb) as U.
  destruct (round_shape _ _ _ _ _ R) as [->|[(ty & v & ->)|(x & -> & _)]].
  - eapply round_gap; [exact R|exact U|]. intros ->. destruct n; cbn in L; now injection L.
  - rewrite (no_step _ _ _ _ _ _ R), Z.add_0_r in U. apply round_tok in R as (x & -> & -> & _). cbn [map app fst] in *.
    replace line with (line + 0) at 2 by lia. change (ch :: x ++ r) with ([] ++ tok_value (Tok ty (ch :: x)) ++ r).
    apply up_token; [constructor|now inversion Fa|]. now rewrite Z.add_0_r.
  - exfalso. cbn in Fa. inversion Fa as [|? ? [K _]]. now apply K.
Qed.

(** A program is its tokens, with whitespace and comments between them; two tokens are on one line just if no line break is between
    them outside of comments in brackets.  (Nor do line breaks in strings count.) *)
Theorem C91_lines : forall lang src ts, tokenize_lines lang src = Ok ts -> ~ In TErr (map fst ts) -> lined_up lang 0 src ts.
Proof. intros lang src ts E N. eapply all_lined; [exact E|]. now apply (lines_lexemes lang src). Qed.
(** One of each: "a--x", on the next line "--[[", on the next "]]b//y" *)
Example ex_lines : tokenize_lines Pico8 [97; 45; 45; 120; 10; 45; 45; 91; 91; 10; 93; 93; 98; 47; 47; 121] = Ok [(Tok TIdent [97], 0); (Tok TIdent [98], 1)].
Proof. reflexivity. Qed.
Print Assumptions C91_lines.
