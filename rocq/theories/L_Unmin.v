(** Tokens that can be put next to each other. *)
From Coq Require Import String List ZArith Lia Bool.
From Verif Require Import M_Base L_Util M_Fold M_Token S_Str S_Token L_Token L_TokenSeq M_Expr.
Import ListNotations.
Open Scope Z_scope.

(** The token is read before a text that begins so. *)
Definition passes (lang : language) (p : tok) (c : Z) : Prop :=
  forall r ts, tokenize lang (c :: r) = Ok ts -> tokenize lang (tok_value p ++ c :: r) = Ok (p :: ts).
Lemma passes_round lang ty ch x c : (forall r, tok_round lang ch (x ++ c :: r) = Round [Tok ty (ch :: x)] (c :: r)) -> passes lang (Tok ty (ch :: x)) c.
Proof. intros H r ts E. cbn [tok_value app]. now rewrite tokenize_cons, H, E. Qed.
Lemma passes_space lang p c : lexeme lang p -> mem c k_wspace = true -> passes lang p c.
Proof.
  intros L W r ts E. destruct p as [ty v|]; [|now destruct L]. apply lexeme_round in L. cbn [tok_value]. apply (tokenize_step lang ty v [] (c :: r) L); [now left|exact E].
Qed.

Lemma pass_word lang ty v c : lexeme lang (Tok ty v) -> ty = TIdent \/ ty = TKeyword -> is_ident_char lang c = false -> passes lang (Tok ty v) c.
Proof.
  intros L Ty Hc. apply lexeme_round in L. destruct L as (ch & x & -> & R). apply passes_round. intros r. unfold tok_round in *. rewrite app_nil_r in R.
  destruct (mem ch k_wspace); [discriminate R|]. destruct (is_dec_digit ch || ((ch =? 46) && next_is is_dec_digit x)) eqn:D.
  { destruct (scan_number lang (ch :: x)). injection R as <- _ _. destruct Ty; discriminate. }
  apply orb_false_elim in D. destruct D as (D & _). destruct (is_ident_char lang ch) eqn:I.
  - assert (N : (ch =? 46) = false) by (destruct (Z.eqb_spec ch 46) as [->|]; [destruct lang; discriminate I|reflexivity]). rewrite D, N. cbn [orb andb].
    destruct (span (is_ident_char lang) (ch :: x)) as (a, y) eqn:F. injection R as T V ->. subst a.
    rewrite <- (app_nil_r (ch :: x)) in F at 1. apply span_iff in F. destruct F as (F & _).
    change (ch :: x ++ c :: r) with ((ch :: x) ++ c :: r). replace (span (is_ident_char lang) ((ch :: x) ++ c :: r)) with (ch :: x, c :: r).
    + unfold ident_tok. now rewrite T.
    + symmetry. apply span_iff. split; [exact F|exact Hc].
  - exfalso. destruct ((ch =? 34) || (ch =? 39)); [destruct (scan_string ch MText x); try discriminate R; injection R as <- _ _; destruct Ty; discriminate|].
    destruct ((ch =? 91) && next_is (fun c => mem c [61; 91]) x); [destruct (scan_long (ch :: x)); try discriminate R; injection R as <- _ _; destruct Ty; discriminate|].
    destruct ((ch =? 45) && next_is (Z.eqb 45) x); [destruct (scan_long (skipn 1 x)); discriminate R|].
    destruct ((ch =? 47) && is_pico8 lang && next_is (Z.eqb 47) x); [discriminate R|].
    destruct (mem ch punct_chars); [destruct (scan_punct lang ch x); injection R as <- _ _; destruct Ty; discriminate|].
    destruct ((ch =? 33) && next_is (Z.eqb 61) x); [injection R as <- _ _; destruct Ty; discriminate|discriminate R].
Qed.
Lemma pass_string lang v c : lexeme lang (Tok TString v) -> passes lang (Tok TString v) c.
Proof.
  intros L. apply lexeme_round in L. destruct L as (ch & x & -> & R). apply passes_round. intros r. unfold tok_round in *. rewrite app_nil_r in R.
  destruct (mem ch k_wspace); [discriminate R|]. destruct (is_dec_digit ch || ((ch =? 46) && next_is is_dec_digit x)) eqn:D.
  { destruct (scan_number lang (ch :: x)). discriminate R. }
  destruct (is_ident_char lang ch) eqn:I.
  { destruct (span (is_ident_char lang) (ch :: x)) as (a, y). unfold ident_tok in R. destruct (is_keyword a); discriminate R. }
  apply orb_false_elim in D. destruct D as (D & _).
  destruct ((ch =? 34) || (ch =? 39)) eqn:Q.
  - assert (N : (ch =? 46) = false) by (destruct (Z.eqb_spec ch 46) as [->|]; [discriminate Q|reflexivity]). rewrite D, N. cbn [orb andb].
    destruct (scan_string ch MText x) as [a y|a y|] eqn:F; try discriminate R. injection R as -> ->. rewrite <- (app_nil_r x) in F at 1. now rewrite (scan_string_ext _ _ _ _ (c :: r) F).
  - destruct ((ch =? 91) && next_is (fun c => mem c [61; 91]) x) eqn:L.
    + apply andb_prop in L. destruct L as (L & L2). apply Z.eqb_eq in L. subst ch. destruct (scan_long (91 :: x)) as [w i y|y|y] eqn:F; try discriminate R. injection R as -> ->.
      apply scan_long_ok in F as [n [F1 [F2 F3]]]. injection F2 as F2. subst x.
      assert (Nx : next_is (fun c => mem c [61; 91]) ((repeat 61 n ++ 91 :: i ++ 93 :: repeat 61 n ++ [93]) ++ c :: r) = true) by (destruct n; reflexivity).
      rewrite Nx, D. cbn [Z.eqb Pos.eqb andb orb]. pose proof (scan_long_make n i (c :: r) (find_sub_ext _ _ _ (c :: r) F3)) as M.
      replace (91 :: (repeat 61 n ++ 91 :: i ++ 93 :: repeat 61 n ++ [93]) ++ c :: r) with (91 :: repeat 61 n ++ 91 :: i ++ (93 :: repeat 61 n ++ [93]) ++ c :: r).
      * rewrite M. reflexivity.
      * f_equal. rewrite <- !app_assoc. cbn. rewrite <- !app_assoc. cbn. rewrite <- !app_assoc. reflexivity.
    + exfalso. destruct ((ch =? 45) && next_is (Z.eqb 45) x); [destruct (scan_long (skipn 1 x)); discriminate R|].
      destruct ((ch =? 47) && is_pico8 lang && next_is (Z.eqb 47) x); [discriminate R|].
      destruct (mem ch punct_chars); [destruct (scan_punct lang ch x); discriminate R|].
      destruct ((ch =? 33) && next_is (Z.eqb 61) x); discriminate R.
Qed.

(** The symbols that are put next to what is before them: ) ] curly , ; ( [ : *)
Definition stops : list Z := [41; 93; 125; 44; 59; 40; 91; 58].
Ltac each H := cbn in H; repeat (destruct H as [<-|H]; [|]); [..|contradiction].
Lemma picotron_stop c : In c stops -> forall h a p, number_picotron h p (a ++ []) = (a, []) -> forall r, number_picotron h p (a ++ c :: r) = (a, c :: r).
Proof.
  intros S h. induction a as [|d a IH]; intros p E r.
  - each S; reflexivity.
  - cbn [app number_picotron] in *. match type of E with (if ?x then _ else _) = _ => destruct x end; [|discriminate E].
    destruct (number_picotron h d (a ++ [])) as (a', b') eqn:F. injection E as -> ->. now rewrite (IH d F r).
Qed.
Lemma pass_number lang v c : lexeme lang (Tok TNumber v) -> In c stops -> passes lang (Tok TNumber v) c.
Proof.
  intros L S. apply lexeme_round in L. destruct L as (ch & x & -> & R). apply passes_round. intros r. unfold tok_round in *.
  destruct (mem ch k_wspace); [discriminate R|]. destruct (is_dec_digit ch || ((ch =? 46) && next_is is_dec_digit (x ++ []))) eqn:D.
  - assert (D' : is_dec_digit ch || ((ch =? 46) && next_is is_dec_digit (x ++ c :: r)) = true).
    { destruct x as [|d x]; [|exact D]. cbn [app next_is] in D. rewrite andb_false_r, orb_false_r in D. now rewrite D. }
    rewrite D'. destruct (scan_number lang (ch :: x ++ [])) as (a, y) eqn:F. injection R as -> ->.
    assert (G : scan_number lang (ch :: x ++ c :: r) = (ch :: x, c :: r)); [|now rewrite G].
    destruct lang; cbn [scan_number] in *.
    + assert (E : forall bs, bs = [98; 66] \/ bs = [120; 88] -> starts_with2 48 bs (ch :: x ++ c :: r) = starts_with2 48 bs (ch :: x ++ [])).
      { intros bs B. destruct x as [|d x]; [|reflexivity]. cbn [app starts_with2]. replace (mem c bs) with false; [apply andb_false_r|]. destruct B as [->| ->]; each S; reflexivity. }
      unfold number_pico8 in *. rewrite !E by auto. 
      assert (K : forall f w a, f c = false -> span f (w ++ []) = (a, []) -> span f (w ++ c :: r) = (a, c :: r)).
      { intros f w a Fc Sp. pose proof (span_app _ _ _ _ Sp) as Q. rewrite !app_nil_r in Q. subst a. apply span_iff in Sp. apply span_iff. cbn [stop]. tauto. }
      destruct (starts_with2 48 [98; 66] (ch :: x ++ [])) eqn:E1; [|destruct (starts_with2 48 [120; 88] (ch :: x ++ [])) eqn:E2].
      * destruct x as [|d x]; [discriminate E1|]. cbn [app skipn firstn] in *. destruct (span _ (x ++ [])) as (a, y) eqn:G. injection F as -> ->. rewrite (K _ _ _) with (2 := G); [reflexivity|each S; reflexivity].
      * destruct x as [|d x]; [discriminate E2|]. cbn [app skipn firstn] in *. destruct (span _ (x ++ [])) as (a, y) eqn:G. injection F as -> ->. rewrite (K _ _ _) with (2 := G); [reflexivity|each S; reflexivity].
      * apply (K _ (ch :: x)); [each S; reflexivity|exact F].
    + replace (starts_with2 48 [120; 88] (ch :: x ++ c :: r)) with (starts_with2 48 [120; 88] (ch :: x ++ [])).
      * apply (picotron_stop c S _ (ch :: x)). exact F.
      * destruct x as [|d x]; [|reflexivity]. cbn [app starts_with2]. replace (mem c [120; 88]) with false; [symmetry; apply andb_false_r|each S; reflexivity].
  - exfalso. rewrite app_nil_r in R. destruct (is_ident_char lang ch).
    { destruct (span (is_ident_char lang) (ch :: x)) as (a, y). unfold ident_tok in R. destruct (is_keyword a); discriminate R. }
    destruct ((ch =? 34) || (ch =? 39)); [destruct (scan_string ch MText x); discriminate R|].
    destruct ((ch =? 91) && next_is (fun c => mem c [61; 91]) x); [destruct (scan_long (ch :: x)); discriminate R|].
    destruct ((ch =? 45) && next_is (Z.eqb 45) x); [destruct (scan_long (skipn 1 x)); discriminate R|].
    destruct ((ch =? 47) && is_pico8 lang && next_is (Z.eqb 47) x); [discriminate R|].
    destruct (mem ch punct_chars); [destruct (scan_punct lang ch x); discriminate R|].
    destruct ((ch =? 33) && next_is (Z.eqb 61) x); discriminate R.
Qed.

(** Symbols. *)
Lemma pass_single lang s c : In s ["("; ")"; "]"; "{"; "}"; "?"; "#"; "@"; "$"; "::"; "..."]%string -> passes lang (pt s) c.
Proof. intros I. each I; apply passes_round; intros r; destruct lang; reflexivity. Qed.
Lemma pass_bracket lang c : c <> 61 -> c <> 91 -> passes lang (pt "[") c.
Proof.
  intros A B. apply passes_round. intros r. unfold tok_round. cbn [app]. replace (next_is (fun d => mem d [61; 91]) (c :: r)) with false.
  - destruct lang; reflexivity.
  - cbn. destruct (Z.eqb_spec c 61); [contradiction|]. destruct (Z.eqb_spec c 91); [contradiction|reflexivity].
Qed.
Lemma pass_dot lang c : is_dec_digit c = false -> c <> 46 -> passes lang (pt ".") c.
Proof.
  intros A B. change (pt ".") with (Tok TPunct [46]). apply passes_round. intros r. assert (E : scan_punct lang 46 (c :: r) = ([], c :: r)) by (unfold scan_punct; cbn; destruct (Z.eqb_spec c 46); [contradiction|reflexivity]).
  unfold tok_round. cbn [app next_is]. rewrite A, E. destruct lang; reflexivity.
Qed.
Lemma pass_colon lang c : c <> 58 -> passes lang (pt ":") c.
Proof.
  intros B. change (pt ":") with (Tok TPunct [58]). apply passes_round. intros r. assert (E : scan_punct lang 58 (c :: r) = ([], c :: r)) by (unfold scan_punct; cbn; destruct (Z.eqb_spec c 58); [contradiction|reflexivity]).
  unfold tok_round. cbn [app]. rewrite E. destruct lang; reflexivity.
Qed.
Lemma pass_op lang s c : In s ["-"; "~"; "%"; "*"]%string -> c <> 61 -> (s = "-"%string -> c <> 45) -> passes lang (pt s) c.
Proof.
  intros I A B. assert (E : forall k, accept 61 (c :: k) = ([], c :: k)) by (intros k; cbn; destruct (Z.eqb_spec c 61); [contradiction|reflexivity]).
  assert (N : s = "-"%string -> (45 =? c) = false) by (intros H; apply Z.eqb_neq; intros <-; now apply B).
  each I; match goal with |- passes _ (pt ?s) _ => let v := eval vm_compute in (asc s) in change (pt s) with (Tok TPunct v) end; apply passes_round; intros r; unfold tok_round, scan_punct; cbn [app next_is].
  - rewrite N, E by reflexivity. destruct lang; reflexivity.
  - rewrite E. destruct lang; reflexivity.
  - rewrite E. destruct lang; reflexivity.
  - rewrite E. destruct lang; reflexivity.
Qed.
