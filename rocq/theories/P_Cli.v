(** C97: what is written, and when nothing is. *)
From Coq Require Import List ZArith Bool Lia.
From Verif Require Import M_Cli S_Cli.
Import ListNotations.

Section cli.
Context (text toks root err out : Type).
Context (tokenize : text -> toks * list err) (parse : text -> toks -> root -> root * list err) (root0 : root) (sort_root : root -> root).
Context (lint_code : root -> list err) (preproc simplify_code transform_code : root -> root * list err) (rename_tokens minify_code : root -> root).
Context (output_code unminify_code : root -> nat -> text).
Notation run := (run text toks root err out tokenize parse root0 sort_root lint_code preproc simplify_code transform_code rename_tokens minify_code output_code unminify_code).
Notation process := (process_code text toks root err tokenize parse root0 sort_root lint_code preproc simplify_code transform_code rename_tokens minify_code output_code unminify_code).
Notation handle := (handle_processing text toks root err tokenize parse root0 sort_root lint_code preproc simplify_code transform_code rename_tokens minify_code output_code unminify_code).
Notation readable := (readable text toks root err tokenize parse).
Notation tree_of := (tree_of text toks root err tokenize parse root0 sort_root).
Notation warned := (warned root err lint_code preproc).
Notation wanted := (wanted text toks root err tokenize parse root0 sort_root preproc simplify_code transform_code rename_tokens minify_code output_code unminify_code).

Lemma read_iff w : forall source r r', read_sources text toks root err tokenize parse w r source = inl r' <-> readable (need_parse w) r source r'.
Proof.
  induction source as [|t source IH]; intros r r'; cbn [read_sources].
  - split; [intros [= <-]; constructor|]. intros H. inversion H. reflexivity.
  - destruct (tokenize t) as [ts es] eqn:T. split.
    + destruct es as [|e es]; cbn [is_nil andb]; [|discriminate]. destruct (need_parse w) eqn:N.
      * destruct (parse t ts r) as [r1 es] eqn:P. destruct es; [|discriminate]. intros H. apply IH in H. econstructor; [exact T|exact P|exact H].
      * intros H. apply IH in H. econstructor; [exact T|reflexivity|exact H].
    + intros H. inversion H as [|? ? ts' r1 ? ? T' P R]; subst. rewrite T in T'. injection T' as -> ->. cbn [is_nil andb]. destruct (need_parse w).
      * rewrite P. now apply IH.
      * subst r1. now apply IH.
Qed.
Lemma read_error w : forall source r es, read_sources text toks root err tokenize parse w r source = inr es -> es <> [].
Proof.
  induction source as [|t source IH]; intros r es H; cbn [read_sources] in H; [discriminate H|]. destruct (tokenize t) as [ts e1].
  destruct (if is_nil e1 && need_parse w then parse t ts r else (r, e1)) as [r1 e2]. destruct e2; [now apply IH in H|]. injection H as <-. discriminate.
Qed.
Lemma files_ok f (r : root) (source : list text) : length (files text root f r source) = length source /\ forall i t, nth_error (files text root f r source) i = Some t -> t = f r i.
Proof.
  unfold files. split; [now rewrite map_length, seq_length|]. intros i t H. rewrite nth_error_map in H. destruct (nth_error (seq 0 (length source)) i) as [j|] eqn:E; [|discriminate H].
  cbn in H. injection H as <-. assert (i < length (seq 0 (length source)))%nat by (apply nth_error_Some; congruence). rewrite seq_length in *.
  rewrite (nth_error_nth' _ 0%nat) in E by (now rewrite seq_length). rewrite seq_nth in E by assumption. now injection E as <-.
Qed.
(** One cart *)
Lemma one w c : needed w = true ->
  (forall r, ~ tree_of (need_parse w) c r) -> exists es c', process w c = (false, es, c') /\ es <> [].
Proof.
  intros N B. unfold process_code. rewrite N. cbn [negb]. destruct (read_sources text toks root err tokenize parse w root0 c) as [r|es] eqn:R.
  - exfalso. apply read_iff in R. apply (B (sort_root r)). now exists r.
  - eexists _, _. split; [reflexivity|]. eapply read_error; exact R.
Qed.
Lemma nonempty {A} (l : list A) : l <> [] -> is_nil l = false.
Proof. now destruct l. Qed.
Lemma one_warned w c r : needed w = true -> c <> [] -> tree_of (need_parse w) c r -> warned w r -> w_no_lint_fail w = false ->
  exists es, process w c = (true, es, c) /\ es <> [].
Proof.
  intros N C (r' & R & ->) W F. unfold process_code. rewrite N. cbn [negb]. apply read_iff in R. rewrite R. destruct c as [|t c]; [contradiction|].
  destruct (if w_preproc w then preproc (sort_root r') else (sort_root r', [])) as [r1 more] eqn:P.
  set (es := (if w_lint w then lint_code (sort_root r') else []) ++ more).
  assert (E : es <> []).
  { unfold es. intros E. apply app_eq_nil in E as (E1 & E2). destruct W as [(L & H)|(L & H)].
    - rewrite L in E1. contradiction.
    - rewrite L in P. rewrite P in H. contradiction. }
  rewrite (nonempty _ E), F. cbn [orb]. eauto.
Qed.
Lemma one_done w c : (needed w = true -> exists r, tree_of (need_parse w) c r /\ (w_no_lint_fail w = true \/ ~ warned w r)) ->
  exists es c', process w c = (true, es, c') /\ wanted w c c' /\ ((forall r, snd (simplify_code r) = [] /\ snd (transform_code r) = []) -> w_no_lint_fail w = false -> es = []).
Proof.
  intros H. unfold process_code, S_Cli.wanted. change (asked w) with (needed w). change (parsed_for w) with (need_parse w). destruct (needed w) eqn:N; cbn [negb]; [|exists [], c; auto 6].
  destruct (H eq_refl) as (r & (r' & R & ->) & W). apply read_iff in R as R'. rewrite R'. destruct c as [|t c].
  { exists [], []. split; [reflexivity|]. split; [|auto]. split; [reflexivity|]. exists (sort_root r'). split; [now exists r'|]. intros [|i] t E; discriminate E. }
  assert (LA : looked_at root err preproc w (sort_root r') = fst (if w_preproc w then preproc (sort_root r') else (sort_root r', []))) by (unfold looked_at; now destruct (w_preproc w)).
  destruct (if w_preproc w then preproc (sort_root r') else (sort_root r', [])) as [r1 more] eqn:P. cbn [fst] in LA.
  set (es := (if w_lint w then lint_code (sort_root r') else []) ++ more).
  assert (E : is_nil es || w_no_lint_fail w = true).
  { destruct W as [->|W]; [apply orb_true_r|]. apply orb_true_iff. left. destruct es eqn:E; [reflexivity|]. exfalso. apply W. unfold S_Cli.warned. unfold es in E.
    destruct (w_lint w) eqn:L; [destruct (lint_code (sort_root r')) eqn:K; [|left; split; [reflexivity|discriminate]]|]; cbn [app] in E; right;
      (destruct (w_preproc w); [split; [reflexivity|rewrite P; cbn [snd]; congruence]|injection P as <- <-; discriminate E]). }
  assert (Q0 : w_no_lint_fail w = false -> es = []) by (intros F; rewrite F, orb_false_r in E; now destruct es). rewrite E. destruct (w_minify w) eqn:M.
  - destruct (simplify_code r1) as [r2 m1] eqn:S1. destruct (transform_code (if w_rename w then rename_tokens r2 else r2)) as [r3 m2] eqn:S2.
    assert (SM : small root err simplify_code transform_code rename_tokens minify_code w r1 = minify_code r3) by (unfold small; rewrite S1; cbn [fst]; now rewrite S2).
    destruct (files_ok output_code (minify_code r3) (t :: c)) as (F1 & F2).
    assert (Q1 : (forall r, snd (simplify_code r) = [] /\ snd (transform_code r) = []) -> w_no_lint_fail w = false -> es ++ m1 ++ m2 = []).
    { intros Q F. rewrite (Q0 F). destruct (Q r1) as (A & _). rewrite S1 in A. cbn [snd] in A. destruct (Q (if w_rename w then rename_tokens r2 else r2)) as (_ & B). rewrite S2 in B. cbn [snd] in B. now rewrite A, B. }
    destruct (w_unminify w) eqn:U; (eexists _, _; split; [reflexivity|]; split; [|exact Q1]).
    + destruct (files_ok unminify_code (minify_code r3) (files text root output_code (minify_code r3) (t :: c))) as (G1 & G2). split; [now rewrite G1|].
      exists (sort_root r'). split; [now exists r'|]. rewrite LA, SM. exact G2.
    + split; [exact F1|]. exists (sort_root r'). split; [now exists r'|]. rewrite LA, SM. exact F2.
  - destruct (w_unminify w) eqn:U; (eexists _, _; split; [reflexivity|]; split; [|intros _; exact Q0]).
    + destruct (files_ok unminify_code r1 (t :: c)) as (G1 & G2). split; [exact G1|]. exists (sort_root r'). split; [now exists r'|]. rewrite LA. exact G2.
    + split; [reflexivity|]. exists (sort_root r'). split; [now exists r'|]. auto.
Qed.
Lemma stops w carts : (exists c, In c carts /\ exists ok es c', process w c = (ok, es, c') /\ es <> [] /\ (ok = false \/ w_lint w = true /\ w_no_lint_fail w = false)) ->
  exists ok carts', handle w carts = (false, ok, carts').
Proof.
  intros (c & I & ok & es & c' & E & NE & H). induction carts as [|d carts IH]; [destruct I|]. cbn [handle_processing]. destruct (process w d) as [[ok1 es1] d'] eqn:D.
  destruct (negb (is_nil es1) && (negb ok1 || w_lint w && negb (w_no_lint_fail w))) eqn:X; [eauto|]. destruct I as [->|I].
  - exfalso. rewrite E in D. injection D as <- <- <-. rewrite (nonempty _ NE) in X. destruct H as [H|(H1 & H2)]; [rewrite H in X|rewrite H1, H2 in X]; cbn in X; [discriminate X|]. rewrite orb_true_r in X. discriminate X.
  - destruct (IH I) as (ok2 & cs & ->). eauto.
Qed.

(** If the code of any cart cannot be read, nothing is written, and the exit code says so. *)
Theorem C97_broken : forall w outputs carts, asked w = true -> (exists c, In c carts /\ forall r, ~ tree_of (parsed_for w) c r) ->
  exists code, run w outputs carts = (code, []) /\ code <> 0%Z.
Proof.
  intros w outputs carts. change (asked w) with (needed w). change (parsed_for w) with (need_parse w). intros N (c & I & B). destruct (one w c N B) as (es & c' & E & NE). destruct (stops w carts) as (ok & cs & H); [exists c; split; [exact I|]; exists false, es, c'; auto|].
  unfold M_Cli.run. rewrite H. cbn [negb]. destruct ok; eexists; (split; [reflexivity|discriminate]).
Qed.
(** If the linter is asked for and warns, or the script does, so too, unless it is said that this is not to be so. *)
Theorem C97_lint : forall w outputs carts, w_lint w = true -> w_no_lint_fail w = false ->
  (exists c r, In c carts /\ c <> [] /\ tree_of (parsed_for w) c r /\ warned w r) -> exists code, run w outputs carts = (code, []) /\ code <> 0%Z.
Proof.
  intros w outputs carts. change (parsed_for w) with (need_parse w). intros L F (c & r & I & C & T & W). destruct (one_warned w c r) as (es & E & NE); [unfold needed; now rewrite L|exact C|exact T|exact W|exact F|].
  destruct (stops w carts) as (ok & cs & H); [exists c; split; [exact I|]; exists true, es, c; auto|].
  unfold M_Cli.run. rewrite H. cbn [negb]. destruct ok; eexists; (split; [reflexivity|discriminate]).
Qed.
(** Else all outputs are written, and each has of each cart what was asked for. *)
Theorem C97_done_partial : forall w outputs carts,
  (asked w = true -> forall c, In c carts -> exists r, tree_of (parsed_for w) c r /\ (w_no_lint_fail w = true \/ ~ warned w r)) ->
  (w_lint w = true -> w_no_lint_fail w = false -> forall r, snd (simplify_code r) = [] /\ snd (transform_code r) = []) ->
  exists carts', run w outputs carts = (0%Z, map (fun o => (o, carts')) outputs) /\ Forall2 (wanted w) carts carts'.
Proof.
  intros w outputs carts. change (asked w) with (needed w). change (parsed_for w) with (need_parse w). intros H Q. assert (K : exists ok carts', handle w carts = (true, ok, carts') /\ Forall2 (wanted w) carts carts').
  { induction carts as [|c carts IH]; cbn [handle_processing]; [eexists _, _; split; [reflexivity|constructor]|].
    destruct IH as (ok & cs & E & F); [intros N d I; apply H; [exact N|now right]|].
    destruct (one_done w c) as (es & c' & P & W & Z); [intros N; apply H; [exact N|now left]|]. rewrite P, E.
    replace (negb (is_nil es) && (negb true || w_lint w && negb (w_no_lint_fail w))) with false; [eexists _, _; split; [reflexivity|now constructor]|].
    symmetry. cbn [negb orb]. destruct (w_lint w) eqn:L; [|apply andb_false_r]. destruct (w_no_lint_fail w) eqn:Fl; [apply andb_false_r|]. cbn [negb andb]. rewrite andb_true_r. rewrite (Z (Q eq_refl eq_refl) eq_refl). reflexivity. }
  destruct K as (ok & cs & E & F). exists cs. unfold M_Cli.run. rewrite E. auto.
Qed.
(** So what is written is never of a cart that could not be read. *)
Theorem C97_written : forall w outputs carts code o cs, asked w = true -> run w outputs carts = (code, o :: cs) ->
  code = 0%Z /\ forall c, In c carts -> exists r, tree_of (parsed_for w) c r.
Proof.
  intros w outputs carts code o cs. change (asked w) with (needed w). change (parsed_for w) with (need_parse w). intros N R. split.
  - unfold M_Cli.run in R. destruct (handle w carts) as [[[|] ok] cs']; cbn [negb] in R; [now injection R as <- _|discriminate R].
  - intros c I. destruct (read_sources text toks root err tokenize parse w root0 c) as [r|es] eqn:E.
    + apply read_iff in E. exists (sort_root r). now exists r.
    + exfalso. destruct (C97_broken w outputs carts N) as (code' & R' & _); [|rewrite R' in R; discriminate R].
      exists c. split; [exact I|]. intros r (r' & K & _). apply read_iff in K. rewrite E in K. discriminate K.
Qed.
(** What the exit code says: 0, and all outputs are written; 1 or 2, and none is, for code that cannot be read or because of the linter. *)
Lemma process_ok w c ok es c' : process w c = (ok, es, c') -> ok = false -> needed w = true /\ forall r, ~ tree_of (need_parse w) c r.
Proof.
  intros E ->. unfold process_code in E. destruct (needed w); cbn [negb] in E; [|discriminate E]. split; [reflexivity|].
  destruct (read_sources text toks root err tokenize parse w root0 c) as [r|e] eqn:R.
  - exfalso. destruct c as [|t c]; [discriminate E|]. destruct (if w_preproc w then preproc (sort_root r) else (sort_root r, [])) as [r1 more].
    destruct (is_nil _ || w_no_lint_fail w); [|discriminate E]. destruct (w_minify w); [|discriminate E]. destruct (simplify_code r1) as [r2 m1].
    destruct (transform_code (if w_rename w then rename_tokens r2 else r2)) as [r3 m2]. discriminate E.
  - intros r (r' & K & _). apply read_iff in K. rewrite R in K. discriminate K.
Qed.
Lemma handle_code w : forall carts ok carts', handle w carts = (false, ok, carts') ->
  if ok then w_lint w = true /\ w_no_lint_fail w = false else needed w = true /\ exists c, In c carts /\ forall r, ~ tree_of (need_parse w) c r.
Proof.
  induction carts as [|c carts IH]; intros ok carts'; cbn [handle_processing]; [discriminate|]. destruct (process w c) as [[ok1 es] c'] eqn:E.
  destruct (negb (is_nil es) && (negb ok1 || w_lint w && negb (w_no_lint_fail w))) eqn:X.
  - intros [= <- _]. apply andb_prop in X as (_ & X). destruct ok1; cbn [negb orb] in X.
    + apply andb_prop in X as (X1 & X2). split; [exact X1|]. now apply negb_true_iff.
    + destruct (process_ok w c false es c' E eq_refl) as (N & H). split; [exact N|]. exists c. split; [now left|exact H].
  - destruct (handle w carts) as [[p ok2] cs] eqn:H. intros [= -> -> _]. specialize (IH ok cs eq_refl). destruct ok; [exact IH|]. destruct IH as (N & d & I & B). split; [exact N|]. exists d. split; [now right|exact B].
Qed.
Theorem C97_code : forall w outputs carts code written, run w outputs carts = (code, written) ->
  (code = 0%Z /\ map fst written = outputs) \/
  (code = 1%Z /\ written = [] /\ asked w = true /\ exists c, In c carts /\ forall r, ~ tree_of (parsed_for w) c r) \/
  (code = 2%Z /\ written = [] /\ w_lint w = true /\ w_no_lint_fail w = false).
Proof.
  intros w outputs carts code written. change (asked w) with (needed w). change (parsed_for w) with (need_parse w). intros R. unfold M_Cli.run in R. destruct (handle w carts) as [[passed ok] cs] eqn:H. destruct passed; cbn [negb] in R.
  - injection R as <- <-. left. split; [reflexivity|]. rewrite map_map. cbn [fst]. apply map_id.
  - injection R as <- <-. right. apply handle_code in H. destruct ok; [right|left]; auto.
Qed.
End cli.
Print Assumptions C97_code.
Print Assumptions C97_broken.
Print Assumptions C97_lint.
Print Assumptions C97_done_partial.
Print Assumptions C97_written.

(** ** Where it fails: a script reports something about the tree, and the linter is not asked for.  Then the minifier does nothing, but the cart
    is written as if it had.  Here texts are numbers, those below 10 can be read, and to minify is to add 100. *)
Open Scope Z_scope.
Definition ex_tokenize (n : Z) : Z * list Z := (n, if (n <? 10)%Z then [] else [n]).
Definition ex_parse (t n : Z) (r : list Z) : list Z * list Z := (r ++ [n], if (n =? 9)%Z then [n] else []).
Definition ex_lint (r : list Z) : list Z := filter (Z.eqb 7) r.
Definition ex_pass (r : list Z) : list Z * list Z := (r, []).
Definition ex_script (r : list Z) : list Z * list Z := (r, filter (Z.eqb 5) r).
Definition ex_output (r : list Z) (i : nat) : Z := (100 + nth i r 0)%Z.
Definition ex_run := run Z Z (list Z) Z bool ex_tokenize ex_parse [] (fun r => r) ex_lint ex_script ex_pass ex_pass (fun r => r) (fun r => r) ex_output ex_output.
Definition minifying (lint script no_fail : bool) : wishes := mkw lint true true false false script no_fail.
Theorem C97_script_refuted : ex_run (minifying false false false) [true] [[5]] = (0, [(true, [[105]])])%Z /\ ex_run (minifying false true false) [true] [[5]] = (0, [(true, [[5]])])%Z.
Proof. split; reflexivity. Qed.
(** ** Cases: all is well; one that cannot be read; one the linter warns about; so too, but that is not to matter *)
Example ex_runs : ex_run (minifying true true false) [true; false] [[1; 2]; [3]] = (0, [(true, [[101; 102]; [103]]); (false, [[101; 102]; [103]])])%Z /\
  ex_run (minifying false false false) [true] [[1]; [2; 9]] = (1, [])%Z /\ ex_run (minifying true false false) [true] [[1]; [7]] = (2, [])%Z /\
  ex_run (minifying true false true) [true] [[1]; [7]] = (0, [(true, [[101]; [107]])])%Z.
Proof. repeat split; reflexivity. Qed.
Example ex_unread : exists c, In c [[1]; [2; 9]]%Z /\ forall r, ~ tree_of Z Z (list Z) Z ex_tokenize ex_parse [] (fun r => r) true c r.
Proof.
  exists [2; 9]%Z. split; [right; now left|]. intros r (r' & H & _). inversion H as [|? ? ts r1 ? ? T P R]; subst. cbn in T. injection T as <-.
  inversion R as [|? ? ts r2 ? ? T' P' R']; subst. cbn in T'. injection T' as <-. cbn in P'. injection P' as _ K. discriminate K.
Qed.
Example ex_read : tree_of Z Z (list Z) Z ex_tokenize ex_parse [] (fun r => r) true [1; 7]%Z [1; 7]%Z /\ warned (list Z) Z ex_lint ex_script (minifying true false false) [1; 7]%Z /\
  tree_of Z Z (list Z) Z ex_tokenize ex_parse [] (fun r => r) true [1; 2]%Z [1; 2]%Z /\ ~ warned (list Z) Z ex_lint ex_script (minifying true true false) [1; 2]%Z.
Proof.
  split; [|split; [|split]].
  - exists [1; 7]%Z. split; [|reflexivity]. econstructor; [reflexivity|reflexivity|]. econstructor; [reflexivity|reflexivity|constructor].
  - left. split; [reflexivity|]. discriminate.
  - exists [1; 2]%Z. split; [|reflexivity]. econstructor; [reflexivity|reflexivity|]. econstructor; [reflexivity|reflexivity|constructor].
  - intros [(_ & K)|(_ & K)]; now apply K.
Qed.
Print Assumptions C97_script_refuted.
