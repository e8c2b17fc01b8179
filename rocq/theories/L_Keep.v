(** Lemmas on comments that are kept: the tokenizer passes over gaps, and what is printed for comments is one. *)
From Coq Require Import String.
From Coq Require Import List ZArith Bool Lia.
From Verif Require Import M_Base L_Util M_Fold M_Token S_Token M_Expr M_Stmt M_Hints S_Gap S_Hints M_Keep S_Keep L_Token L_TokenSeq L_TokenTotal L_Pipe P_Gap.
Import ListNotations.
Open Scope list_scope.
Open Scope Z_scope.

(** ** Gaps are passed over *)
Lemma find_sub_some pat : forall x y, exists a b, find_sub pat (x ++ pat ++ y) = Some (a, b).
Proof.
  induction x as [|c x IH]; intros y; [exists [], y; cbn [app]; apply find_sub_here|]. rewrite find_sub_eq. cbn [app]. destruct (is_prefix pat (c :: x ++ pat ++ y)); [eauto|].
  destruct (IH y) as (a & b & E). rewrite E. eauto.
Qed.
Lemma block_find k inner r : (forall x y, inner ++ [93] ++ repeat 61 k ++ [93] = x ++ [93] ++ repeat 61 k ++ [93] ++ y -> y = []) ->
  find_sub (93 :: repeat 61 k ++ [93]) (inner ++ (93 :: repeat 61 k ++ [93]) ++ r) = Some (inner, r).
Proof.
  intros H. set (pat := 93 :: repeat 61 k ++ [93]). destruct (find_sub_some pat inner r) as (a & b & E). rewrite E. apply find_first in E as [E1 E2].
  pose proof (E2 inner r (eq_sym E1)) as L.
  assert (K : exists y, inner ++ pat = (a ++ pat) ++ y).
  { assert (Q : (inner ++ pat) ++ r = (a ++ pat) ++ b) by (rewrite <- !app_assoc; exact E1).
    exists (firstn (length (inner ++ pat) - length (a ++ pat)) b). apply (f_equal (firstn (length (inner ++ pat)))) in Q.
    rewrite firstn_app, firstn_all, Nat.sub_diag, firstn_O, app_nil_r in Q. rewrite firstn_app in Q. rewrite firstn_all2 in Q by (rewrite !app_length; lia). exact Q. }
  destruct K as (y & K).
  assert (Y : y = []).
  { apply (H a). unfold pat in K. cbn [app] in K |- *. rewrite <- !app_assoc in K. cbn [app] in K. rewrite <- !app_assoc in K. exact K. }
  subst y. rewrite app_nil_r in K. apply app_inv_tail in K. subst a. apply app_inv_head in E1. apply app_inv_head in E1. now subst b.
Qed.
Lemma opened_within : forall p x body r, ~ In 10 p -> body ++ 10 :: r = p ++ x -> exists x', body = p ++ x'.
Proof.
  induction p as [|c p IH]; intros x body r N E; [now exists body|]. destruct body as [|d body]; cbn [app] in E; injection E as Ec E; subst c.
  - exfalso. apply N. now left.
  - destruct (IH x body r) as (x' & ->); [intros K; apply N; now right|exact E|]. now exists x'.
Qed.
Lemma not_opened t : (forall k x, t <> 91 :: repeat 61 k ++ 91 :: x) -> exists r, scan_long t = LNo r.
Proof.
  intros N. unfold scan_long. destruct t as [|c t]; [eauto|]. destruct (Z.eq_dec c 91) as [->|NC].
  - destruct (span (Z.eqb 61) t) as [pad u] eqn:S. apply span_eq61 in S as (A & B & C). destruct u as [|d u]; [eauto|].
    destruct (Z.eq_dec d 91) as [->|ND]; [exfalso; apply (N (length pad) u); now rewrite <- B, A|].
    destruct d as [|p|p]; eauto. repeat (destruct p as [p|p|]; eauto). now destruct ND.
  - destruct c as [|p|p]; eauto. repeat (destruct p as [p|p|]; eauto). now destruct NC.
Qed.
Lemma skip_body : forall body r, ~ In 10 body -> skip_line (body ++ 10 :: r) = r.
Proof.
  induction body as [|c body IH]; intros r N; cbn [app skip_line]; [reflexivity|]. destruct (Z.eqb_spec c 10) as [->|_]; [destruct N; now left|].
  apply IH. intros K. apply N. now right.
Qed.
Lemma skip_all : forall body, ~ In 10 body -> skip_line body = [].
Proof.
  induction body as [|c body IH]; intros N; cbn [skip_line]; [reflexivity|]. destruct (Z.eqb_spec c 10) as [->|_]; [destruct N; now left|].
  apply IH. intros K. apply N. now right.
Qed.
Lemma dash_round lang t : tok_round lang 45 (45 :: t) = match scan_long t with LOk _ _ r => Round [] r | LUnterm _ => Round [TErr] (skip_line t) | LNo _ => Round [] (skip_line t) end.
Proof. destruct lang; reflexivity. Qed.
Lemma slash_round t : tok_round Pico8 47 (47 :: t) = Round [] (skip_line t).
Proof. reflexivity. Qed.
Lemma line_skipped lang c body r : line_text lang c body -> tokenize lang (c ++ 10 :: r) = tokenize lang r.
Proof.
  intros (m & -> & M & N & O). inversion M as [E|L E]; subst m; cbn [app]; rewrite tokenize_cons.
  - rewrite dash_round. destruct (not_opened (body ++ 10 :: r)) as (z & S).
    + intros k x K. destruct (opened_within (91 :: repeat 61 k ++ [91]) x body r) as (x' & X).
      * cbn [In]. rewrite in_app_iff. cbn [In]. intros [Q|[Q|[Q|[]]]]; try discriminate Q. apply repeat_spec in Q. discriminate Q.
      * rewrite K. cbn [app]. now rewrite <- app_assoc.
      * apply (O eq_refl k x'). rewrite X. cbn [app]. now rewrite <- app_assoc.
    + rewrite S, skip_body by exact N. now destruct (tokenize lang r).
  - subst lang. rewrite slash_round, skip_body by exact N. now destruct (tokenize Pico8 r).
Qed.
Lemma last_line_skipped lang c body : line_text lang c body -> tokenize lang c = Ok [].
Proof.
  intros (m & -> & M & N & O). inversion M as [E|L E]; subst m; cbn [app]; rewrite tokenize_cons.
  - rewrite dash_round. destruct (not_opened body (O eq_refl)) as (z & S). rewrite S, skip_all by exact N. reflexivity.
  - subst lang. rewrite slash_round, skip_all by exact N. reflexivity.
Qed.
Lemma block_skipped lang c inner r : block_text c inner -> tokenize lang (c ++ r) = tokenize lang r.
Proof.
  intros (k & -> & H). cbn [app]. rewrite tokenize_cons, dash_round.
  replace (91 :: (repeat 61 k ++ 91 :: inner ++ 93 :: repeat 61 k ++ [93]) ++ r) with (91 :: repeat 61 k ++ 91 :: inner ++ (93 :: repeat 61 k ++ [93]) ++ r)
    by (rewrite <- !app_assoc; cbn [app]; rewrite <- !app_assoc; cbn [app]; rewrite <- !app_assoc; reflexivity).
  rewrite scan_long_make by (apply block_find; exact H). now destruct (tokenize lang r).
Qed.
Lemma gap_skipped lang g cs s : gap_of lang g cs -> tokenize lang (g ++ s) = tokenize lang s.
Proof.
  induction 1 as [|c g cs I G IH|c body g cs T G IH|c inner g cs T G IH]; cbn [app]; [reflexivity| | |].
  - rewrite tokenize_cons. assert (W : tok_round lang c (g ++ s) = Round [] (g ++ s)).
    { unfold tok_round. replace (mem c k_wspace) with true; [reflexivity|]. destruct I as [<-|[<-|[<-|[<-|[]]]]]; reflexivity. }
    rewrite W, IH. now destruct (tokenize lang s).
  - rewrite <- app_assoc. cbn [app]. now rewrite (line_skipped lang c body).
  - rewrite <- app_assoc. now rewrite (block_skipped lang c inner).
Qed.

(** ** What is printed for a comment *)
Lemma find_past d p : forall a b, ~ In d a -> find_sub (d :: p) (a ++ (d :: p) ++ b) = Some (a, b).
Proof.
  induction a as [|c a IH]; intros b N; [exact (find_sub_here (d :: p) b)|]. rewrite find_sub_eq. cbn [app].
  replace (is_prefix (d :: p) (c :: a ++ d :: p ++ b)) with false.
  - change (d :: p ++ b) with ((d :: p) ++ b). rewrite IH; [reflexivity|]. intros K. apply N. now right.
  - destruct (is_prefix (d :: p) (c :: a ++ d :: p ++ b)) eqn:P; [|reflexivity]. apply is_prefix_iff in P as (r & P). injection P as -> _. destruct N. now left.
Qed.
Lemma out_of c a text b : dollar_or_not c -> k_value c = a ++ keep_body c text ++ b -> ~ In 36 a -> ~ In 107 a -> comment_out c = a ++ text ++ b.
Proof.
  intros D V N1 N2. unfold comment_out, keep_body in *. rewrite V. unfold k_keep_prefix.
  replace (a ++ (k_prefix c ++ asc "keep:" ++ text) ++ b) with (a ++ (k_prefix c ++ asc "keep:") ++ text ++ b) by (rewrite <- !app_assoc; reflexivity).
  destruct D as [-> | ->]; [change ([] ++ asc "keep:") with (107 :: asc "eep:")|change ([36] ++ asc "keep:") with (36 :: asc "keep:")]; now rewrite find_past.
Qed.
Lemma line_out lang c text tail : kept_line lang c text tail -> exists m, comment_out c = (m ++ text) ++ tail /\ mark lang m /\ line_text lang (m ++ text) text.
Proof.
  intros (D & m & M & V & L). exists m. rewrite <- app_assoc. split; [|auto]. apply out_of; [exact D|exact V| |]; inversion M; cbn; lia.
Qed.
Lemma block_out c text : kept_block c text -> block_text (comment_out c) text /\ (In 10 text -> In 10 (k_value c)).
Proof.
  intros (D & k & V & H). set (a := [45; 45; 91] ++ repeat 61 k ++ [91]). set (b := [93] ++ repeat 61 k ++ [93]).
  assert (E : comment_out c = a ++ text ++ b).
  { apply out_of; [exact D| | |].
    - rewrite V. unfold a, b. rewrite <- !app_assoc. reflexivity.
    - unfold a. rewrite !in_app_iff. intros [K|[K|K]]; [cbn in K; lia|apply repeat_spec in K; lia|cbn in K; lia].
    - unfold a. rewrite !in_app_iff. intros [K|[K|K]]; [cbn in K; lia|apply repeat_spec in K; lia|cbn in K; lia]. }
  split.
  - exists k. split; [rewrite E; unfold a, b; rewrite <- !app_assoc; reflexivity|]. intros x y Q. apply (H ((k_prefix c ++ asc "keep:") ++ x) y).
    unfold keep_body. transitivity ((k_prefix c ++ asc "keep:") ++ text ++ [93] ++ repeat 61 k ++ [93]); [rewrite <- !app_assoc; reflexivity|]. rewrite Q. rewrite <- !app_assoc. reflexivity.
  - intros I. rewrite V. unfold keep_body. rewrite !in_app_iff. tauto.
Qed.
Lemma gap_nonneg lang g n : gap lang g n -> 0 <= n.
Proof. induction 1; lia. Qed.
Lemma break_iff s : has_break s = true <-> In 10 s.
Proof. unfold has_break. rewrite existsb_exists. split; [intros (x & I & E); apply Z.eqb_eq in E; now subst x|]. intros I. exists 10. auto. Qed.

Lemma comments_gap lang : forall cs os, Forall2 (keeps lang) cs os -> forall first nl co nl', out_comments first nl cs = (co, nl') ->
  exists n, gap_of lang co os /\ gap lang co n /\ (nl = false -> nl' = false) /\
    ((exists c text, In c cs /\ kept_line lang c text [10]) -> nl' = false /\ 1 <= n) /\
    (nl = true -> (forall c, In c cs -> ~ In 10 (k_value c)) -> nl' = true \/ 1 <= n).
Proof.
  induction 1 as [|c o cs os K F IH]; intros first nl co nl' E; cbn [out_comments] in E.
  - injection E as <- <-. exists 0. split; [constructor|]. split; [constructor|]. split; [auto|]. split; [intros (c & text & [] & _)|auto].
  - set (p := if first || k_glued c then ([], nl) else if k_newline c then ([10], false) else ([], nl)) in E.
    assert (P : p = ([], nl) \/ p = ([10], false)) by (unfold p; destruct (first || k_glued c); [auto|]; destruct (k_newline c); auto).
    destruct p as [sep nl1]. destruct (out_comments false (nl1 && negb (has_break (comment_out c))) cs) as [rest nl2] eqn:R. injection E as <- <-.
    destruct (IH _ _ _ _ R) as (n & G & L & A & B & C). pose proof (gap_nonneg _ _ _ L) as NN.
    assert (X : exists d, (d = 0 \/ d = 1) /\ gap_of lang (comment_out c ++ rest) (o :: os) /\ gap lang (comment_out c ++ rest) (d + n) /\
      ((exists text, kept_line lang c text [10]) -> d = 1 /\ has_break (comment_out c) = true) /\ (has_break (comment_out c) = true -> In 10 (k_value c) \/ d = 1)).
    { destruct K as [text K|text K].
      - apply line_out in K as (m & Eo & M & T). exists 1. rewrite Eo. replace (((m ++ text) ++ [10]) ++ rest) with ((m ++ text) ++ 10 :: rest) by (now rewrite <- !app_assoc).
        split; [auto|]. split; [now apply of_line|]. split; [apply gap_line; [now exists text|exact L]|].
        split; [intros _; split; [reflexivity|]; apply break_iff; rewrite in_app_iff; right; now left|auto].
      - pose proof K as K0. apply block_out in K as (T & I). exists 0. split; [auto|]. split; [now apply of_block|]. split; [apply (gap_block lang _ rest n); [now exists text|exact L]|]. split.
        + intros (text' & D & m & M & V & T'). exfalso. destruct K0 as (_ & k & V' & _).
          assert (Z : k_value c = [45; 45] ++ [91] ++ repeat 61 k ++ [91] ++ keep_body c text ++ [93] ++ repeat 61 k ++ [93]) by (rewrite V'; reflexivity).
          rewrite V in Z. inversion M as [Em|_ Em]; subst m; [|discriminate Z]. cbn [app] in Z. injection Z as Z. unfold keep_body in Z. destruct D as [D|D]; rewrite D in Z; discriminate Z.
        + intros Hb. left. apply break_iff in Hb. destruct T as (k & Eo & _). rewrite Eo in Hb. rewrite !in_app_iff in Hb.
          destruct Hb as [Hb|[Hb|[Hb|[Hb|[Hb|[Hb|Hb]]]]]]; try (cbn in Hb; lia); try (apply repeat_spec in Hb; lia). now apply I. }
    destruct X as (d & Dd & XG & XL & X1 & X2).
    assert (Y : exists s, gap_of lang (sep ++ comment_out c ++ rest) (o :: os) /\ gap lang (sep ++ comment_out c ++ rest) (s + (d + n)) /\ ((s = 0 /\ nl1 = nl) \/ (s = 1 /\ nl1 = false))).
    { destruct P as [[= -> ->]|[= -> ->]]; [exists 0; auto|exists 1]. cbn [app]. split; [apply of_space; [cbn; auto|exact XG]|]. split; [apply gap_break; exact XL|auto]. }
    destruct Y as (s & YG & YL & Ys). exists (s + (d + n)). split; [exact YG|]. split; [exact YL|]. split; [|split].
    + intros N0. apply A. destruct Ys as [(_ & ->)|(_ & ->)]; [now rewrite N0|reflexivity].
    + intros (c' & text & [<-|I] & KL).
      * destruct (X1 (ex_intro _ text KL)) as (-> & Hb). split; [apply A; rewrite Hb; apply andb_false_r|]. destruct Ys; lia.
      * destruct (B (ex_intro _ c' (ex_intro _ text (conj I KL)))) as (-> & N1). split; [reflexivity|]. destruct Ys; lia.
    + intros N0 V. destruct Ys as [(-> & ->)|(-> & ->)]; [|right; lia]. destruct (has_break (comment_out c)) eqn:Hb.
      * destruct X2 as [X2|X2]; [reflexivity| |right; lia]. exfalso. apply (V c); [now left|exact X2].
      * rewrite N0 in R. destruct C as [C|C]; [now rewrite N0|intros c' I; apply V; now right|now left|right; lia].
Qed.

(** ** The loop *)
Lemma gap_of_break lang g os : gap_of lang g os -> gap_of lang (g ++ [10]) os.
Proof.
  induction 1 as [|c g cs I G IH|c body g cs T G IH|c inner g cs T G IH]; cbn [app].
  - apply of_space; [cbn; auto|constructor].
  - now apply of_space.
  - rewrite <- app_assoc. cbn [app]. now apply of_line.
  - rewrite <- app_assoc. now apply of_block.
Qed.
Lemma gap_break_end lang g n : gap lang g n -> gap lang (g ++ [10]) (1 + n).
Proof.
  induction 1 as [|c g n I G IH|g n G IH|c g n T G IH|c g n T G IH]; cbn [app].
  - apply gap_break. constructor.
  - now apply gap_space.
  - now apply gap_break.
  - rewrite <- app_assoc. cbn [app]. apply (gap_line lang c _ (1 + n)); assumption.
  - rewrite <- app_assoc. now apply gap_block.
Qed.
Definition starts (c : kcomment) : Prop := exists x, head (k_value c) = Some x /\ head (comment_out c) = Some x.
Lemma line_starts lang c text tail : kept_line lang c text tail -> starts c.
Proof.
  intros K. pose proof K as K'. apply line_out in K' as (m & E & M & _). destruct K as (D & m' & M' & V & L). exists (hd 0 m). rewrite E, V.
  assert (Q : m' = m).
  { assert (O : comment_out c = m' ++ text ++ tail) by (apply out_of; [exact D|exact V| |]; inversion M'; cbn; lia).
    rewrite E, <- app_assoc in O. inversion M; inversion M'; subst m m'; [reflexivity|discriminate O|discriminate O|reflexivity]. }
  subst m'. inversion M; split; reflexivity.
Qed.
Lemma keeps_starts lang c o : keeps lang c o -> starts c.
Proof.
  intros [text K|text K]; [eapply line_starts; exact K|]. pose proof K as K'. apply block_out in K' as ((k & E & _) & _). destruct K as (_ & k' & V & _).
  exists 45. rewrite E, V. split; reflexivity.
Qed.
Lemma comments_head first nl c cs : starts c -> exists x r, fst (out_comments first nl (c :: cs)) = x :: r /\ (x = 10 \/ head (k_value c) = Some x).
Proof.
  intros (x & V & O). cbn [out_comments].
  destruct (comment_out c) as [|y w] eqn:Eo; [discriminate O|]. injection O as ->.
  destruct (if first || k_glued c then ([], nl) else if k_newline c then ([10], false) else ([], nl)) as [sep nl1] eqn:P.
  assert (Q : sep = [] \/ sep = [10]) by (destruct (first || k_glued c); [injection P as <- _; auto|]; destruct (k_newline c); injection P as <- _; auto).
  destruct (out_comments false _ cs) as [rest nl2]. cbn [fst]. destruct Q as [-> | ->]; cbn [app]; eauto.
Qed.
Lemma comments_app first nl c : forall cs, exists sep, (sep = [] \/ sep = [10]) /\
  fst (out_comments first nl (cs ++ [c])) = fst (out_comments first nl cs) ++ sep ++ comment_out c.
Proof.
  intros cs. revert first nl. induction cs as [|d cs IH]; intros first nl; cbn [app out_comments].
  - destruct (if first || k_glued c then ([], nl) else if k_newline c then ([10], false) else ([], nl)) as [sep nl1] eqn:P. exists sep. cbn [fst app].
    split; [destruct (first || k_glued c); [injection P as <- _; auto|]; destruct (k_newline c); injection P as <- _; auto|]. now rewrite app_nil_r.
  - destruct (if first || k_glued d then ([], nl) else if k_newline d then ([10], false) else ([], nl)) as [sep nl1].
    destruct (IH false (nl1 && negb (has_break (comment_out d)))) as (s & S & E). exists s. split; [exact S|].
    destruct (out_comments false _ (cs ++ [c])) as [r1 n1]. destruct (out_comments false _ cs) as [r2 n2]. cbn [fst] in *. subst r1. now rewrite <- !app_assoc.
Qed.
Lemma ends_gap lang ends os first nl : ends_ok lang ends os ->
  let g := fst (out_comments first nl ends) in tokenize lang g = Ok [] /\
  (gap_of lang g os \/ exists g' os' c text, g = g' ++ c /\ os = os' ++ [(false, text)] /\ gap_of lang g' os' /\ line_text lang c text).
Proof.
  intros [F|(cs & c & os' & text & -> & -> & F & K)] g.
  - destruct (out_comments first nl ends) as [co nl'] eqn:E. cbn [fst] in g. subst g. destruct (comments_gap lang ends os F _ _ _ _ E) as (n & G & _).
    split; [|now left]. pose proof (gap_skipped lang co os [] G) as T. rewrite app_nil_r in T. rewrite T. reflexivity.
  - destruct (comments_app first nl c cs) as (sep & S & E). subst g. rewrite E.
    destruct (out_comments first nl cs) as [co nl'] eqn:Ec. cbn [fst]. destruct (comments_gap lang cs os' F _ _ _ _ Ec) as (n & G & _).
    apply line_out in K as (m & Eo & M & T). rewrite app_nil_r in Eo. rewrite Eo.
    assert (G' : gap_of lang (co ++ sep) os') by (destruct S as [-> | ->]; [now rewrite app_nil_r|now apply gap_of_break]).
    rewrite app_assoc. split.
    + rewrite (gap_skipped lang _ os' _ G'). now apply (last_line_skipped lang _ text).
    + right. exists (co ++ sep), os', (m ++ text), text. auto.
Qed.
Lemma ends_start lang ends os c cs : ends_ok lang ends os -> ends = c :: cs -> starts c.
Proof.
  intros [F|(cs' & c' & os' & text & -> & -> & F & K)] E.
  - subst ends. inversion F as [|? ? ? ? K]; subst. eapply keeps_starts; exact K.
  - destruct cs' as [|d cs']; cbn [app] in E; injection E as -> _; [eapply line_starts; exact K|]. inversion F as [|? ? ? ? K']; subst. eapply keeps_starts; exact K'.
Qed.
(** A token and what can stand behind it *)
Definition follows (lang : language) (p : tok) (rest : list Z) : Prop :=
  match rest with
  | [] => True
  | c :: _ => mem c k_wspace = true \/ exists t, head (tok_value t) = Some c /\ tokenize lang (tok_value p ++ tok_value t) = Ok [p; t]
  end.
Lemma step_any lang p rest ts : lexeme lang p -> follows lang p rest -> tokenize lang rest = Ok ts -> tokenize lang (tok_value p ++ rest) = Ok (p :: ts).
Proof.
  intros Hp W E. destruct p as [ty v|]; [|destruct Hp; contradiction]. cbn [tok_value] in *. destruct rest as [|c rest].
  - apply lexeme_round in Hp as Hr. apply (tokenize_step lang ty v [] _ Hr); [exact I|exact E].
  - destruct W as [W|(t & Hh & T)].
    + apply lexeme_round in Hp as Hr. apply (tokenize_step lang ty v [] _ Hr); [now left|exact E].
    + cbn [tok_value] in T. apply tight_round in T as (ch & x & r & -> & H1 & H2 & H3).
      * apply app_inv_head in H1. subst r. apply (tokenize_step lang ty _ (tok_value t)); [eauto| |exact E]. destruct (tok_value t) as [|d w]; [discriminate Hh|].
        injection Hh as ->. right. reflexivity.
      * unfold total. cbn. now rewrite app_nil_r.
Qed.
Definition toks (l : list kitem) : list tok := map (fun x => o_tok (k_item x)) l.
Lemma follows_comment lang p c x r : meets lang p c -> x = 10 \/ head (k_value c) = Some x -> follows lang p (x :: r).
Proof.
  intros (y & Hy & T) [-> |Hx]; [now left|]. right. rewrite Hx in Hy. injection Hy as ->. exists (Tok TPunct [y]). split; [reflexivity|exact T].
Qed.
Lemma follows_app lang p a b : a <> [] -> follows lang p a -> follows lang p (a ++ b).
Proof. intros N. destruct a; [contradiction|auto]. Qed.
Lemma need_ws_lexeme lang p t : lexeme lang p -> lexeme lang t -> exists w, need_whitespace_between lang p t = Ok w /\ (w = false -> tokenize lang (tok_value p ++ tok_value t) = Ok [p; t]).
Proof. intros Hp Ht. destruct (need_whitespace_total lang p t Hp Ht) as (w & E). exists w. split; [exact E|]. intros ->. now apply no_ws_inv. Qed.
Lemma kept_loop lang ends os : ends_ok lang ends os -> forall l prev, items_ok lang prev l ends -> (forall p, prev = Some p -> lexeme lang p) ->
  exists out, output_kept lang prev false l ends = Ok out /\ kept_text lang ends (is_first prev) out l /\ tokenize lang out = Ok (toks l) /\
    match prev with None => True | Some p => lexeme lang p -> follows lang p out end.
Proof.
  intros EO. induction l as [|x l IH]; intros prev H Hp; cbn [output_kept items_ok] in *.
  - destruct (ends_gap lang ends os (is_first prev) false EO) as (T & G). eexists. split; [reflexivity|]. split; [exact (kept_end lang ends _ _ os EO G)|]. split; [exact T|].
    destruct prev as [p|]; [|exact I]. intros _. destruct ends as [|c cs] eqn:Ee; [exact I|].
    destruct (comments_head (is_first (Some p)) false c cs (ends_start lang _ os c cs EO eq_refl)) as (y & r & -> & Y). exact (follows_comment lang p c y r H Y).
  - destruct H as ((L & K & Hx) & H). set (t := k_item x) in *.
    assert (F : exists ox, Forall2 (keeps lang) (k_comments x) ox).
    { clear -K. induction K as [|c cs (o & Ko) _ (ox & IH)]; [exists []; constructor|]. exists (o :: ox). now constructor. }
    destruct F as (ox & F). rewrite orb_false_l. destruct (out_comments (is_first prev) (o_linebreak t) (k_comments x)) as [co nl] eqn:Ec.
    destruct (comments_gap lang _ ox F _ _ _ _ Ec) as (n & G & Gn & A & B & C). pose proof (gap_nonneg _ _ _ Gn) as NN.
    set (z := match prev, k_comments x with None, [] => _ | _, _ => _ end).
    assert (Z : exists sep, z = Ok (sep, false) /\ gap_of lang (co ++ sep) ox /\
      (exists n', gap lang (co ++ sep) n' /\ (is_first prev = false -> o_linebreak t = true -> 1 <= n')) /\
      (forall p, prev = Some p -> lexeme lang p -> forall r, follows lang p ((co ++ sep) ++ tok_value (o_tok t) ++ r))).
    { assert (Sp : forall sep, (sep = [] /\ (is_first prev = false -> o_linebreak t = true -> 1 <= n)) \/ sep = [10] ->
        gap_of lang (co ++ sep) ox /\ exists n', gap lang (co ++ sep) n' /\ (is_first prev = false -> o_linebreak t = true -> 1 <= n')).
      { intros sep [(-> & Hn)| ->]; [rewrite app_nil_r; eauto|]. split; [now apply gap_of_break|]. exists (1 + n). split; [now apply gap_break_end|lia]. }
      destruct (k_comments x) as [|c cs] eqn:Ek.
      - cbn [out_comments] in Ec. injection Ec as <- <-. destruct prev as [p|]; subst z; cbn [is_first] in *.
        + destruct Hx as (Hb & Hg). assert (Gl : o_glued t = true -> o_linebreak t = false).
          { intros Og. destruct (o_linebreak t) eqn:Ol; [|reflexivity]. destruct (Hb eq_refl) as [(c & text & I & _)|(N & _)]; [rewrite Ek in I; destruct I|]. fold t in N. congruence. }
          destruct (o_glued t) eqn:Og.
          * rewrite (Gl eq_refl) in *. exists []. split; [reflexivity|]. destruct (Sp []) as (S1 & S2); [left; split; [reflexivity|discriminate]|]. split; [exact S1|]. split; [exact S2|].
            intros q [= <-] _ r. cbn [app]. apply follows_app; [exact (lexeme_value _ _ L)|]. specialize (Hg eq_refl). pose proof (lexeme_value _ _ L) as V. unfold follows.
            destruct (tok_value (o_tok t)) as [|d w] eqn:Ev; [contradiction|]. right. exists (o_tok t). rewrite Ev. auto.
          * destruct (o_linebreak t || o_newline t) eqn:On.
            { exists [10]. split; [reflexivity|]. destruct (Sp [10]) as (S1 & S2); [now right|]. split; [exact S1|]. split; [exact S2|]. intros q _ _ r. now left. }
            apply orb_false_elim in On as (Ol & _). rewrite Ol in *. destruct (need_ws_lexeme lang p (o_tok t) (Hp p eq_refl) L) as (w & Ew & Hw).
            exists (if w then [32] else []). rewrite Ew. cbn [M_Base.bind]. split; [reflexivity|]. destruct w.
            { inversion F; subst. cbn [app]. split; [apply of_space; [cbn; auto|constructor]|]. split; [exists 0; split; [apply gap_space; [auto|constructor]|discriminate]|]. intros q _ _ r. now left. }
            destruct (Sp []) as (S1 & S2); [left; split; [reflexivity|discriminate]|]. split; [exact S1|]. split; [exact S2|].
            intros q [= <-] _ r. cbn [app]. apply follows_app; [exact (lexeme_value _ _ L)|]. pose proof (lexeme_value _ _ L) as V. unfold follows.
            destruct (tok_value (o_tok t)) as [|d w] eqn:Ev; [contradiction|]. right. exists (o_tok t). rewrite Ev. auto.
        + rewrite Hx in *. exists []. split; [reflexivity|]. destruct (Sp []) as (S1 & S2); [left; split; [reflexivity|discriminate]|]. split; [exact S1|]. split; [exact S2|]. discriminate.
      - assert (Z : z = if o_glued t then Ok ([], nl) else if nl || o_newline t then Ok ([10], false) else Ok ([], nl)) by (subst z; destruct prev; reflexivity). clearbody z.
        assert (Hs : starts c) by (inversion F as [|? ? ? ? Kc]; subst; eapply keeps_starts; exact Kc).
        pose proof (comments_head (is_first prev) (o_linebreak t) c cs Hs) as (y & r & Ey & Y). rewrite Ec in Ey. cbn [fst] in Ey.
        assert (Fo : forall sep p, prev = Some p -> lexeme lang p -> forall r, follows lang p ((co ++ sep) ++ tok_value (o_tok t) ++ r)).
        { intros sep p -> _ r'. rewrite Ey. cbn [app]. eapply follows_comment; [|exact Y]. apply Hx. }
        assert (Nl : nl = false /\ (is_first prev = false -> o_linebreak t = true -> 1 <= n) \/ o_glued t = false /\ nl = true).
        { destruct prev as [p|]; [|left; split; [now apply A|discriminate]]. destruct Hx as (Hb & _). destruct (o_linebreak t) eqn:Ol; [|left; split; [now apply A|discriminate]].
          destruct (Hb eq_refl) as [(c' & text & I & KL)|(N & V)].
          - rewrite Ek in I. destruct (B (ex_intro _ c' (ex_intro _ text (conj I KL)))). auto.
          - rewrite Ek in V. fold t in N. destruct nl; [now right|]. left. split; [reflexivity|]. destruct (C eq_refl V) as [?|?]; [discriminate|auto]. }
        assert (Q : exists sep, z = Ok (sep, false) /\ ((sep = [] /\ (is_first prev = false -> o_linebreak t = true -> 1 <= n)) \/ sep = [10])).
        { rewrite Z. destruct Nl as [(-> & Hn)|(-> & ->)]; [|exists [10]; auto]. destruct (o_glued t); [exists []; auto|]. cbn [orb]. destruct (o_newline t); [exists [10]; auto|exists []; auto]. }
        destruct Q as (sep & Q & S). exists sep. destruct (Sp sep S) as (S1 & S2). split; [exact Q|]. split; [exact S1|]. split; [exact S2|]. apply Fo. }
    destruct Z as (sep & -> & Zg & (n' & Zn & Zb) & Zf). cbn [M_Base.bind]. destruct (IH _ H ltac:(now intros ? [= <-])) as (rest & -> & Kt & T & W). cbn [M_Base.bind].
    eexists. split; [reflexivity|]. replace (co ++ sep ++ tok_value (o_tok t) ++ rest) with ((co ++ sep) ++ tok_value (o_tok t) ++ rest) by (now rewrite <- app_assoc).
    split; [exact (kept_token lang ends _ _ ox n' x rest l F Zg Zn Zb Kt)|]. split.
    + rewrite (gap_skipped lang _ ox _ Zg). cbn [toks map]. apply step_any; [exact L|now apply W|exact T].
    + destruct prev as [p|]; [|exact I]. intros Lp. now apply Zf.
Qed.
