(** Lemmas on the output: lines and levels. *)
From Coq Require Import String List ZArith Lia Bool.
From Verif Require Import M_Base L_Util M_Fold M_Token M_Expr S_Expr M_Stmt S_Stmt L_Stmt M_Emit S_Emit.
Import ListNotations.
Open Scope Z_scope.

Lemma run_app a : forall s b, run s (a ++ b) = run s a ++ run (after s a) b.
Proof. induction a as [|[t| |] a IH]; intros s b; [reflexivity|..]; cbn [app run after fold_left]; unfold after in IH; rewrite IH; reflexivity. Qed.
Lemma after_app a s b : after s (a ++ b) = after (after s a) b.
Proof. apply fold_left_app. Qed.
Lemma after_t s t m : after s (T t :: m) = after (step s (T t)) m.
Proof. reflexivity. Qed.

Definition lvl (s : estate) : nat := fst (fst s).
Definition due (s : estate) : bool := snd (fst s).
Definition lin (s : estate) : Z := snd s.
Lemma step_t s t : step s (T t) = (lvl s, false, if due s then lin s + 1 else lin s).
Proof. now destruct s as ((lv, nd), l). Qed.

(** Between its begin and its end a construct keeps the level, and in a shorthand it keeps
    the line. *)
Definition even (m : list item) : Prop :=
  (forall s, lvl (after s m) = lvl s) /\ (forall lv l, after (S lv, false, l) m = (S lv, false, l)).
Lemma even_nil : even []. Proof. easy. Qed.
Lemma even_t t : even [T t].
Proof. split; [|reflexivity]. intros s. unfold after. cbn [fold_left]. now rewrite step_t. Qed.
Lemma even_app a b : even a -> even b -> even (a ++ b).
Proof. intros (A & A') (B & B'). split; [intros s; rewrite after_app, B; apply A|]. intros lv l. now rewrite after_app, A', B'. Qed.
Lemma even_short n m : even m -> even (short n m).
Proof.
  intros (A & A'). destruct n; [easy|]. split.
  - intros ((lv, nd), l). unfold short, after. cbn [fold_left step]. change (fold_left step (m ++ [Close]) (S lv, nd, l)) with (after (S lv, nd, l) (m ++ [Close])). rewrite after_app.
    specialize (A (S lv, nd, l)). destruct (after (S lv, nd, l) m) as ((lv', nd'), l'). cbn in A |- *. now subst lv'.
  - intros lv l. unfold short, after. cbn [fold_left step]. change (fold_left step (m ++ [Close]) (S (S lv), false, l)) with (after (S (S lv), false, l) (m ++ [Close])). rewrite after_app, A'. reflexivity.
Qed.
Lemma even_if (c : bool) a b : even a -> even b -> even (if c then a else b).
Proof. now destruct c. Qed.
Ltac evens := repeat (apply even_app || apply even_short || apply even_t || apply even_nil || apply even_if || assumption).
Lemma even_params ps : even (m_params ps).
Proof. induction ps as [|[x|] [|p' ps] IH]; cbn [m_params m_param tn tw] in *; evens. Qed.
Lemma even_vars xs : even (m_vars xs).
Proof. induction xs as [|(x, [a|]) [|p' xs] IH]; cbn [m_vars m_var tn tw fst snd] in *; unfold tw, tn; evens. Qed.
Lemma even_names xs : even (m_names xs).
Proof. induction xs as [|x [|p' xs] IH]; cbn [m_names tn tw] in *; evens. Qed.
Lemma even_dotted xs : even (m_dotted xs).
Proof. induction xs as [|x xs IH]; cbn [m_dotted tn tw] in *; evens. Qed.
Lemma even_sep sep : even (m_sep sep).
Proof. destruct sep; cbn; evens. Qed.
Lemma all_even : (forall e, even (m_ex e)) /\ (forall es, even (m_exs es)) /\ (forall i, even (m_its i)) /\ (forall s, even (m_st s)) /\ (forall b, even (m_blk b)) /\
  (forall i w, even (m_ifs w i)) /\ (forall e, even (m_els e) /\ even (match e with EElse b => m_blk b | _ => [] end)).
Proof.
  apply prog_all; try (intros; cbn [m_ex m_exs m_its m_st m_blk m_ifs m_els]; unfold tw, tn; evens;
    try apply even_params; try apply even_vars; try apply even_names; try apply even_dotted; try apply even_sep; fail).
  - intros e IH es IHs. cbn [m_exs]. destruct es; unfold tw; evens.
  - intros i IH. cbn [m_st]. apply IH.
  - intros x a A z Z step St b B. cbn [m_st]. unfold tw, tn. destruct step; evens.
  - intros xs es IH. cbn [m_st]. unfold tw. destruct es; evens; apply even_vars.
  - intros x path meth ps b B. cbn [m_st]. unfold tw, tn. destruct meth; evens; try apply even_dotted; try apply even_params.
  - intros w c C b B e (E & _) w'. cbn [m_ifs]. unfold tw. evens.
  - intros n c C b B e (E & E') w'. cbn [m_ifs]. unfold tw. evens. destruct e; evens.
  - split; cbn [m_els]; unfold tw; evens.
  - intros b B. split; cbn [m_els]; unfold tw; evens.
  - intros i I. split; cbn [m_els]; [apply I|]; evens.
Qed.

(** Within a shorthand that ends within a line, nothing ends the line but at its end. *)
Definition quiet (m : list item) : Prop := forall l, after (0%nat, false, l) m = (0%nat, false, l).
Definition almost (last : bool) (m : list item) : Prop := forall l, exists d, after (0%nat, false, l) m = (0%nat, d, l) /\ (last = false -> d = false).
Lemma quiet_nil : quiet []. Proof. easy. Qed.
Lemma quiet_t t : quiet [T t]. Proof. intros l. reflexivity. Qed.
Lemma quiet_app a b : quiet a -> quiet b -> quiet (a ++ b).
Proof. intros A B l. now rewrite after_app, A, B. Qed.
Lemma quiet_if (c : bool) a b : quiet a -> quiet b -> quiet (if c then a else b).
Proof. now destruct c. Qed.
Lemma almost_quiet m : almost false m <-> quiet m.
Proof. split; intros H l; [destruct (H l) as (d & E & D); now rewrite E, D|exists false; split; [apply H|easy]]. Qed.
Lemma almost_app t a b : quiet a -> almost t b -> almost t (a ++ b).
Proof. intros A B l. rewrite after_app, A. apply B. Qed.
Lemma quiet_almost t a : quiet a -> almost t a.
Proof. intros A l. exists false. now split. Qed.
Lemma almost_nil t : almost t []. Proof. now apply quiet_almost. Qed.
Lemma almost_if t (c : bool) a b : almost t a -> almost t b -> almost t (if c then a else b).
Proof. now destruct c. Qed.
Ltac quiets := repeat (apply quiet_app || apply quiet_t || apply quiet_nil || apply quiet_if || assumption).
Lemma quiet_params ps : quiet (m_params ps).
Proof. induction ps as [|[x|] [|p' ps] IH]; cbn [m_params m_param tn tw] in *; quiets. Qed.
Lemma quiet_vars xs : quiet (m_vars xs).
Proof. induction xs as [|(x, [a|]) [|p' xs] IH]; cbn [m_vars m_var tn tw fst snd] in *; unfold tw, tn; quiets. Qed.
Lemma quiet_names xs : quiet (m_names xs).
Proof. induction xs as [|x [|p' xs] IH]; cbn [m_names tn tw] in *; quiets. Qed.
Lemma quiet_dotted xs : quiet (m_dotted xs).
Proof. induction xs as [|x xs IH]; cbn [m_dotted tn tw] in *; quiets. Qed.
Lemma quiet_sep sep : quiet (m_sep sep).
Proof. destruct sep; cbn; quiets. Qed.
Lemma all_quiet : (forall e, fits_ex (Nest false) e -> quiet (m_ex e)) /\ (forall es, fits_exs (Nest false) es -> quiet (m_exs es)) /\ (forall i, fits_its (Nest false) i -> quiet (m_its i)) /\
  (forall s t k, fits_st (Nest t) k s -> almost t (m_st s)) /\ (forall b t k, fits_blk (Nest t) k b -> almost t (m_blk b)) /\
  (forall i w t k, fits_ifs (Nest t) k i -> almost t (m_ifs w i)) /\
  (forall e, (forall t k, fits_els (Nest t) k e -> almost t (m_els e)) /\ match e with EElse b => forall t k, fits_blk (Nest t) k b -> almost t (m_blk b) | _ => True end).
Proof.
  assert (Q : forall b, (forall t k, fits_blk (Nest t) k b -> almost t (m_blk b)) -> forall k, fits_blk (Nest false) k b -> quiet (m_blk b)) by (intros b H k F; apply almost_quiet; now apply (H false k)).
  apply prog_all; try (intros; cbn [fits_ex fits_exs fits_its fits_st calm m_ex m_exs m_its m_st] in *; unfold tw, tn; try apply quiet_almost; quiets;
    try apply quiet_params; try apply quiet_vars; try apply quiet_names; try apply quiet_dotted; try apply quiet_sep; try tauto; try (eapply Q; [eassumption|]; try eassumption; tauto); fail).
  - intros e IH es IHs (F & Fs). specialize (IH F). specialize (IHs Fs). cbn [m_exs]. destruct es; unfold tw; quiets.
  - intros i IH t k F. cbn [fits_st m_st] in *. now apply (IH _ t k).
  - intros c C b B t k F. cbn [fits_st m_st calm] in *. destruct F as (F1 & F2). unfold tw. apply quiet_almost. quiets; [now apply C|now apply (Q b B Closer)].
  - intros n c C b B t k F. cbn [fits_st m_st] in *. destruct n; [|easy]. cbn [enter calm short_behind] in F. destruct F as (F1 & F2 & F3). unfold short, tw. apply almost_app; [quiets|]. apply almost_app; [now apply C|]. now apply (B t k).
  - intros b B c C t k F. cbn [fits_st m_st calm] in *. destruct F as (F1 & F2). unfold tw. apply quiet_almost. quiets; [now apply (Q b B Closer)|now apply C].
  - intros x a A z Z step St b B t k F. cbn [fits_st m_st calm] in *. destruct F as (F1 & F2 & F3 & F4). specialize (St F3). unfold tw, tn. apply quiet_almost. destruct step; quiets; try (now apply A); try (now apply Z); now apply (Q b B Closer).
  - intros xs es IH b B t k F. cbn [fits_st calm m_st] in *. destruct F as (F1 & F2). unfold tw. apply quiet_almost. quiets; [apply quiet_names|now apply IH|now apply (Q b B Closer)].
  - intros xs es IH t k F. cbn [fits_st calm m_st] in *. specialize (IH F). unfold tw. apply quiet_almost. destruct es; quiets; apply quiet_vars.
  - intros x path meth ps b B t k F. cbn [fits_st calm m_st] in *. unfold tw, tn. apply quiet_almost. destruct meth; quiets; try apply quiet_dotted; try apply quiet_params; now apply (Q b B Closer).
  - intros es IH t k (N & F). cbn [m_st]. destruct t; [|easy]. intros l. exists true. split; [|easy]. unfold short, tw. cbn [app]. unfold after. cbn [fold_left step].
    destruct all_even as (_ & Ev & _). destruct (Ev es) as (_ & E). change (fold_left step (m_exs es ++ [Close]) (1%nat, false, l)) with (after (1%nat, false, l) (m_exs es ++ [Close])). rewrite after_app, E. reflexivity.
  - intros s S b B t k F. cbn [fits_blk m_blk] in *. destruct b; [|destruct F as (F1 & F2); apply almost_app; [apply almost_quiet; now apply (S false More)|now apply (B t k)]].
    cbn [m_blk]. rewrite app_nil_r. now apply (S t k).
  - intros w c C b B e (E & _) w' t k F. cbn [fits_ifs calm m_ifs] in *. destruct F as (F1 & F2 & F3). unfold tw. apply almost_app; [quiets|]. apply almost_app; [now apply C|]. apply almost_app; [quiets|].
    apply almost_app; [eapply Q; [exact B|exact F2]|]. now apply (E t k).
  - intros n c C b B e (_ & E) w' t k F. cbn [fits_ifs m_ifs] in *. destruct n; [|easy]. cbn [enter calm short_behind] in F. destruct F as (F1 & F2 & F3). unfold short, tw.
    apply almost_app; [quiets|]. apply almost_app; [now apply C|]. destruct e as [|b'|i].
    + rewrite app_nil_r. now apply (B t k).
    + destruct F3 as (F3 & F4). apply almost_app; [eapply Q; [exact B|exact F3]|]. apply almost_app; [quiets|]. now apply (E t k).
    + rewrite app_nil_r. now apply (B t k).
  - split; [|easy]. intros t k _. cbn. unfold tw. apply quiet_almost. quiets.
  - intros b B. split; [|exact B]. intros t k F. cbn [fits_els calm m_els] in *. unfold tw. apply quiet_almost. quiets. now apply (Q b B Closer).
  - intros i I. split; [|exact Logic.I]. intros t k F. cbn [fits_els m_els] in *. now apply (I _ t k).
Qed.
