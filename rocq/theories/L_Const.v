(** Constant folding keeps what programs do: worlds and the first sims. *)
From Coq Require Import String List ZArith Bool Lia.
From Verif Require Import M_Base M_Fold M_Token M_Expr M_Stmt M_Branch M_Const S_Fold S_Run S_Alpha S_Const L_Util L_Stmt L_Fold L_FoldExpr.
From Verif Require L_Branch.
Import ListNotations.

(** ** Tables *)
Lemma un_named op o : un_of op = Some o -> exists s, op = asc s /\ In (s, o) unary_names.
Proof.
  unfold un_of, one_of. cbn [existsb]. rewrite !orb_false_r.
  repeat match goal with |- context [zeqb_list op ?x] => let F := fresh in destruct (zeqb_list op x) eqn:F; [apply zeqb_list_true in F; subst op; intros Q; injection Q as <-; eexists; split; [reflexivity|cbn; tauto]|] end.
  discriminate.
Qed.
Lemma bin_named op o : bin_of op = Some o -> (o = BAnd /\ op = asc "and") \/ (o = BOr /\ op = asc "or") \/ (o <> BAnd /\ o <> BOr /\ is_op op "and" = false /\ is_op op "or" = false /\ exists s, op = asc s /\ In (s, o) binary_names).
Proof.
  unfold bin_of. cbn [op_in].
  repeat match goal with |- context [zeqb_list op ?x] => let F := fresh in destruct (zeqb_list op x) eqn:F; [apply zeqb_list_true in F; subst op; intros Q; injection Q as <-;
    first [left; split; reflexivity | right; left; split; reflexivity | right; right; split; [discriminate|]; split; [discriminate|]; split; [reflexivity|]; split; [reflexivity|]; eexists; split; [reflexivity|cbn; tauto]]|] end.
  discriminate.
Qed.
Lemma fun_named x o : fun_of x = Some o -> exists s, x = asc s /\ In (s, o) builtin_names.
Proof.
  unfold fun_of. cbn [fun_in].
  repeat match goal with |- context [zeqb_list x ?y] => let F := fresh in destruct (zeqb_list x y) eqn:F; [apply zeqb_list_true in F; subst x; intros Q; injection Q as <-; eexists; split; [reflexivity|cbn; tauto]|] end.
  discriminate.
Qed.
Lemma named_fun s o : In (s, o) builtin_names -> fun_of (asc s) = Some o.
Proof. intros H. cbn in H. repeat (destruct H as [H|H]; [injection H as <- <-; reflexivity|]). destruct H. Qed.

Section C.
Context {V Mem : Type} (m : machine V Mem) (lang : language) (value : tok -> option lval) (token : lval -> tok) (chars : bool) (longer : lval -> ex -> bool) (calls : bool) (assigned : list Z -> bool).
Context (val : lval -> V) (whole : string -> Mem -> Prop) (OK : computes lang value val whole m).
Context (TOKEN : forall v, S_Fold.value_of lang v -> value (token v) = Some v).
Notation M := (M V Mem).
Notation state := (state V Mem).
Notation sig := (sig V).
Notation cx := (c_ex lang value token chars longer calls assigned).
Notation cxs := (c_exs lang value token chars longer calls assigned).
Notation ctg := (c_tgts lang value token chars longer calls assigned).
Notation cit := (c_its lang value token chars longer calls assigned).
Notation cst := (c_st lang value token chars longer calls assigned).
Notation cbl := (c_blk lang value token chars longer calls assigned).
Notation cif := (c_ifs lang value token chars longer calls assigned).
Notation cel := (c_els lang value token chars longer calls assigned).
Notation valof := (S_Fold.value_of lang).
Definition print_name : list Z := asc "print".

(** ** Worlds: what became of each box *)
Inductive went := EKeep (c : option V) | EGone (v : V).
Notation world := (list went).
Fixpoint idx (w : world) (a : nat) : nat :=
  match w, a with
  | EKeep _ :: w, S a => S (idx w a)
  | EGone _ :: w, S a => idx w a
  | _, _ => O
  end.
Inductive brel : world -> list V -> list V -> Prop :=
| b_nil : brel [] [] []
| b_keep c v w B B' : (forall u, c = Some u -> v = u) -> brel w B B' -> brel (EKeep c :: w) (v :: B) (v :: B')
| b_gone v w B B' : brel w B B' -> brel (EGone v :: w) (v :: B) B'.
Definition ext (w w1 : world) : Prop := exists u, w1 = w ++ u.
Lemma ext_refl w : ext w w. Proof. exists []. now rewrite app_nil_r. Qed.
Lemma ext_trans a b c : ext a b -> ext b c -> ext a c.
Proof. intros (u & ->) (v & ->). exists (u ++ v). now rewrite app_assoc. Qed.
Lemma ext_nth w w1 a e : ext w w1 -> nth_error w a = Some e -> nth_error w1 a = Some e.
Proof. intros (u & ->) H. rewrite nth_error_app1; [exact H|]. apply nth_error_Some. congruence. Qed.
Lemma idx_app : forall w u a, (a <= length w)%nat -> idx (w ++ u) a = idx w a.
Proof.
  induction w as [|[c|v] w IH]; intros u a L; cbn [length] in L.
  - replace a with 0%nat by lia. destruct u as [|[]]; reflexivity.
  - destruct a; cbn [app idx]; [reflexivity|]. rewrite IH by lia. reflexivity.
  - destruct a; cbn [app idx]; [reflexivity|]. apply IH. lia.
Qed.
Lemma ext_idx w w1 a e : ext w w1 -> nth_error w a = Some e -> idx w1 a = idx w a.
Proof. intros (u & ->) H. apply idx_app. assert (a < length w)%nat by (apply nth_error_Some; congruence). lia. Qed.
Lemma brel_len w B B' : brel w B B' -> length B = length w /\ length B' = idx w (length w).
Proof. induction 1 as [|c v w B B' H _ (I & J)|v w B B' _ (I & J)]; cbn; auto. Qed.
Lemma brel_keep w B B' a c d : brel w B B' -> nth_error w a = Some (EKeep c) -> nth a B d = nth (idx w a) B' d /\ forall u, c = Some u -> nth a B d = u.
Proof.
  intros H. revert a. induction H; intros a E.
  - destruct a; discriminate.
  - destruct a; cbn in *; [|now apply IHbrel]. injection E as ->. auto.
  - destruct a; cbn in *; [discriminate|now apply IHbrel].
Qed.
Lemma brel_gone w B B' a v d : brel w B B' -> nth_error w a = Some (EGone v) -> nth a B d = v.
Proof.
  intros H. revert a. induction H; intros a E.
  - destruct a; discriminate.
  - destruct a; cbn in *; [discriminate|now apply IHbrel].
  - destruct a; cbn in *; [congruence|now apply IHbrel].
Qed.
Lemma brel_set w B B' a v : brel w B B' -> nth_error w a = Some (EKeep None) -> brel w (set_nth a v B) (set_nth (idx w a) v B').
Proof.
  intros H. revert a. induction H; intros a E.
  - destruct a; discriminate.
  - destruct a; cbn in *.
    + injection E as ->. constructor; [discriminate|assumption].
    + constructor; [assumption|]. now apply IHbrel.
  - destruct a; cbn in *; [discriminate|]. constructor. now apply IHbrel.
Qed.
Lemma brel_new w B B' c v : brel w B B' -> (forall u, c = Some u -> v = u) -> brel (w ++ [EKeep c]) (B ++ [v]) (B' ++ [v]).
Proof. induction 1; intros K; cbn; constructor; auto. constructor. Qed.
Lemma brel_out w B B' v : brel w B B' -> brel (w ++ [EGone v]) (B ++ [v]) B'.
Proof. induction 1; cbn; constructor; auto. constructor. Qed.

(** ** Locals *)
Inductive vrel (w : world) : scope -> vars -> vars -> Prop :=
| v_nil : vrel w [] [] []
| v_plain x a sc r r' : x <> env_var -> nth_error w a = Some (EKeep None) -> vrel w sc r r' ->
    vrel w ((x, None) :: sc) ((x, a) :: r) ((x, idx w a) :: r')
| v_both x v a sc r r' : x <> env_var -> x <> print_name -> valof v -> chars = false -> nth_error w a = Some (EKeep (Some (val v))) -> vrel w sc r r' ->
    vrel w ((x, Some v) :: sc) ((x, a) :: r) ((x, idx w a) :: r')
| v_gone x v a sc r r' : x <> env_var -> x <> print_name -> valof v -> chars = false -> nth_error w a = Some (EGone (val v)) -> vrel w sc r r' ->
    vrel w ((x, Some v) :: sc) ((x, a) :: r) r'.
Lemma vrel_ext w w1 sc r r' : ext w w1 -> vrel w sc r r' -> vrel w1 sc r r'.
Proof.
  intros E. induction 1.
  - constructor.
  - rewrite <- (ext_idx _ _ _ _ E H0). constructor; auto. eapply ext_nth; eassumption.
  - rewrite <- (ext_idx _ _ _ _ E H3). constructor; auto. eapply ext_nth; eassumption.
  - apply (v_gone _ _ _ a); auto. eapply ext_nth; eassumption.
Qed.
Lemma zeqb_no x y : x <> y -> zeqb_list x y = false.
Proof. intros N. destruct (zeqb_list x y) eqn:E; [|easy]. apply zeqb_list_true in E. now destruct N. Qed.
Lemma vrel_env w sc r r' : vrel w sc r r' -> find env_var r = None /\ find env_var r' = None /\ look env_var sc = None.
Proof. induction 1; cbn [find look]; rewrite ?zeqb_no by assumption; auto. Qed.
Lemma vrel_find w sc r r' x : vrel w sc r r' ->
  match look x sc with
  | None => find x r = None /\ find x r' = None
  | Some None => exists a, find x r = Some a /\ find x r' = Some (idx w a) /\ nth_error w a = Some (EKeep None)
  | Some (Some v) => valof v /\ chars = false /\ x <> print_name /\
      exists a, find x r = Some a /\ (nth_error w a = Some (EGone (val v)) \/ nth_error w a = Some (EKeep (Some (val v))))
  end.
Proof.
  induction 1; cbn [find look]; auto.
  - destruct (zeqb_list x0 x) eqn:E; [|exact IHvrel]. now exists a.
  - destruct (zeqb_list x0 x) eqn:E; [|exact IHvrel]. apply zeqb_list_true in E. subst. repeat (split; [assumption|]). exists a. auto.
  - destruct (zeqb_list x0 x) eqn:E.
    + apply zeqb_list_true in E. subst. repeat (split; [assumption|]). exists a. auto.
    + destruct (look x sc) as [[v'|]|]; auto.
Qed.

(** ** Assignments *)
(** Constants are not assigned, and globals only if it is known. *)
Definition ok (sc : scope) (f : list Z -> bool) : Prop :=
  (forall x v, look x sc = Some (Some v) -> f x = false) /\ (forall x, look x sc = None -> f x = true -> assigned x = true).
Lemma ok_or sc f h : ok sc (fun x => f x || h x) -> ok sc f /\ ok sc h.
Proof.
  intros (A & B). split; split; intros.
  - apply A in H. now apply orb_false_elim in H.
  - apply (B x H). now rewrite H0.
  - apply A in H. now apply orb_false_elim in H.
  - apply (B x H). now rewrite H0, orb_true_r.
Qed.
Lemma look_app x : forall a b, look x (a ++ b) = match look x a with Some c => Some c | None => look x b end.
Proof. induction a as [|(y & c) a IH]; intros b; cbn [app look]; [easy|]. destruct (zeqb_list y x); [easy|apply IH]. Qed.
Lemma zeqb_sym x y : zeqb_list x y = zeqb_list y x.
Proof.
  destruct (zeqb_list x y) eqn:E; [apply zeqb_list_true in E; subst; now rewrite zeqb_list_refl|].
  symmetry. apply zeqb_no. intros ->. now rewrite zeqb_list_refl in E.
Qed.
Lemma plain_cons x xs sc : plain (x :: xs) sc = plain xs ((x, None) :: sc).
Proof. unfold plain. cbn [map rev]. now rewrite <- app_assoc. Qed.
Lemma look_plain x : forall xs sc, look x (plain xs sc) = if has x xs then Some None else look x sc.
Proof.
  induction xs as [|y xs IH]; intros sc; [reflexivity|]. rewrite plain_cons, IH. unfold has. cbn [existsb look]. fold (has x xs).
  rewrite (zeqb_sym x y). destruct (has x xs), (zeqb_list y x); reflexivity.
Qed.
Lemma ok_under sc xs f : ok sc (fun x => if has x xs then false else f x) -> ok (plain xs sc) f.
Proof.
  intros (A & B). split; intros x.
  - intros v H. rewrite look_plain in H. destruct (has x xs) eqn:E; [discriminate|]. specialize (A x v H). cbn in A. now rewrite E in A.
  - intros H K. rewrite look_plain in H. destruct (has x xs) eqn:E; [discriminate|]. apply (B x H). now rewrite E.
Qed.
Lemma ok_ext sc f h : (forall x, f x = h x) -> ok sc f -> ok sc h.
Proof. intros E (A & B). split; intros; rewrite <- E in *; eauto. Qed.

(** ** States *)
Definition intact (me : Mem) : Prop := forall s f, In (s, f) builtin_names -> assigned (asc s) = false -> whole s me.
Definition crel (w : world) (c c' : closure) : Prop :=
  let '(ps, b, r) := c in let '(ps', b', r') := c' in
  exists sc, vrel w sc r r' /\ ps' = ps /\ no_env (pnames ps) /\ b' = fst (cbl (plain (pnames ps) sc) b (fun _ => false)) /\
    legal false b /\ fine b /\ ok (plain (pnames ps) sc) (fun x => sets_blk x b false).
Lemma crel_ext w w1 c c' : ext w w1 -> crel w c c' -> crel w1 c c'.
Proof. destruct c as [[ps b] r], c' as [[ps' b'] r']. intros E (sc & R & H). exists sc. split; [eapply vrel_ext; eassumption|exact H]. Qed.
Definition srel (w : world) (s s' : state) : Prop :=
  brel w (boxes s) (boxes s') /\ mem s' = mem s /\ intact (mem s) /\ Forall2 (crel w) (funs s) (funs s').
Definition orel {A B} (w : world) (R : world -> A -> B -> Prop) (o : out V Mem A) (o' : out V Mem B) : Prop :=
  match o, o' with
  | Gives a s, Gives b s' => exists w1, ext w w1 /\ srel w1 s s' /\ R w1 a b
  | Raises v s, Raises v' s' => v = v' /\ exists w1, ext w w1 /\ srel w1 s s'
  | Unfinished, Unfinished => True
  | _, _ => False
  end.
Definition sim {A B} (w : world) (R : world -> A -> B -> Prop) (x : M A) (y : M B) : Prop :=
  forall w1, ext w w1 -> forall s s', srel w1 s s' -> orel w1 R (x s) (y s').
Definition same {A} (_ : world) (a b : A) : Prop := a = b.
Definition mono {A B} (R : world -> A -> B -> Prop) : Prop := forall w w1 a b, ext w w1 -> R w a b -> R w1 a b.

Lemma sim_ext {A B} w w1 (R : world -> A -> B -> Prop) x y : ext w w1 -> sim w R x y -> sim w1 R x y.
Proof. intros E H w2 E2. apply H. eapply ext_trans; eassumption. Qed.
Lemma sim_ret {A B} w (R : world -> A -> B -> Prop) a b : (forall w1, ext w w1 -> R w1 a b) -> sim w R (ret a) (ret b).
Proof. intros H w1 E s s' S. exists w1. split; [apply ext_refl|]. split; [exact S|now apply H]. Qed.
Lemma sim_eq {A} w (a : A) : sim w same (ret a) (ret a).
Proof. apply sim_ret. reflexivity. Qed.
Lemma sim_bind {A B C D} w (R : world -> A -> B -> Prop) (Q : world -> C -> D -> Prop) x y f h :
  sim w R x y -> (forall w1 a b, ext w w1 -> R w1 a b -> sim w1 Q (f a) (h b)) -> sim w Q (bind x f) (bind y h).
Proof.
  intros H F w1 E s s' S. specialize (H w1 E s s' S). unfold bind, orel in *.
  destruct (x s) as [a t|v t|], (y s') as [b t'|v' t'|]; try contradiction; try assumption. destruct H as (w2 & E2 & S2 & H).
  specialize (F w2 _ _ (ext_trans _ _ _ E E2) H w2 (ext_refl _) _ _ S2). unfold orel in *.
  destruct (f a t), (h b t'); try contradiction; try exact I.
  - destruct F as (w3 & E3 & S3 & F). exists w3. split; [eapply ext_trans; eassumption|auto].
  - destruct F as (-> & w3 & E3 & S3). split; [easy|]. exists w3. split; [eapply ext_trans; eassumption|auto].
Qed.
Lemma sim_never {A B} w (R : world -> A -> B -> Prop) : sim w R never never.
Proof. intros w1 _ s s' _. exact I. Qed.
Lemma sim_if {A B} w (R : world -> A -> B -> Prop) (b : bool) x y x' y' : sim w R x x' -> sim w R y y' -> sim w R (if b then x else y) (if b then x' else y').
Proof. now destruct b. Qed.
Lemma sim_weak {A B} w (R Q : world -> A -> B -> Prop) x y : (forall w1 a b, ext w w1 -> R w1 a b -> Q w1 a b) -> sim w R x y -> sim w Q x y.
Proof.
  intros W H w1 E s s' S. specialize (H w1 E s s' S). unfold orel in *. destruct (x s), (y s'); try contradiction; auto.
  destruct H as (w2 & E2 & S2 & H). exists w2. split; [exact E2|]. split; [exact S2|]. apply W; [eapply ext_trans; eassumption|exact H].
Qed.
Lemma sim_left {A B} w (R : world -> A -> B -> Prop) x x2 y : (forall s, x s = x2 s) -> sim w R x2 y -> sim w R x y.
Proof. intros K H w1 E s s' S. rewrite K. now apply H. Qed.
Lemma sim_right {A B} w (R : world -> A -> B -> Prop) x y y2 : (forall s, y s = y2 s) -> sim w R x y2 -> sim w R x y.
Proof. intros K H w1 E s s' S. rewrite K. now apply H. Qed.
(** what is so of all results on the right *)
Lemma sim_post {A B} w (R : world -> A -> B -> Prop) (P : B -> Prop) x y : (forall s b s', y s = Gives b s' -> P b) -> sim w R x y -> sim w (fun w a b => R w a b /\ P b) x y.
Proof.
  intros K H w1 E s s' S. specialize (H w1 E s s' S). unfold orel in *. destruct (x s), (y s') eqn:Y; try contradiction; auto.
  destruct H as (w2 & E2 & S2 & H). exists w2. split; [exact E2|]. split; [exact S2|]. split; [exact H|]. eapply K; exact Y.
Qed.
(** Constants: both sides give the values and touch nothing. *)
Definition pure (w : world) (vs : list V) (x y : M (list V)) : Prop :=
  forall w1, ext w w1 -> forall s s', srel w1 s s' -> x s = Gives vs s /\ y s' = Gives vs s'.
Lemma pure_ext w w1 vs x y : ext w w1 -> pure w vs x y -> pure w1 vs x y.
Proof. intros E H w2 E2. apply H. eapply ext_trans; eassumption. Qed.
Lemma pure_sim w vs x y : pure w vs x y -> sim w same x y.
Proof. intros H w1 E s s' S. destruct (H w1 E s s' S) as (-> & ->). exists w1. split; [apply ext_refl|]. split; [exact S|reflexivity]. Qed.
Lemma pure_bind {C D} w vs x y (Q : world -> C -> D -> Prop) f h : pure w vs x y -> sim w Q (f vs) (h vs) -> sim w Q (bind x f) (bind y h).
Proof. intros P H w1 E s s' S. destruct (P w1 E s s' S) as (A & B). unfold bind. rewrite A, B. exact (H w1 E s s' S). Qed.
Lemma pure_left {C D} w vs x y (Q : world -> C -> D -> Prop) f z : pure w vs x y -> sim w Q (f vs) z -> sim w Q (bind x f) z.
Proof. intros P H w1 E s s' S. destruct (P w1 E s s' S) as (A & _). unfold bind. rewrite A. exact (H w1 E s s' S). Qed.

Lemma F2_impl {A B} (R Q : A -> B -> Prop) l l' : (forall a b, R a b -> Q a b) -> Forall2 R l l' -> Forall2 Q l l'.
Proof. intros H. induction 1; constructor; auto. Qed.
Lemma new_nth (w : world) e : nth_error (w ++ [e]) (length w) = Some e.
Proof. rewrite nth_error_app2, Nat.sub_diag by lia. reflexivity. Qed.
Lemma srel_boxes w u s s' B B' : srel w s s' -> brel (w ++ u) B B' -> srel (w ++ u) (St B (funs s) (mem s)) (St B' (funs s') (mem s')).
Proof.
  intros (A & M1 & I & F) H. split; [exact H|]. split; [exact M1|]. split; [exact I|]. cbn [funs].
  eapply F2_impl; [|exact F]. intros c c'. apply crel_ext. now exists u.
Qed.
Lemma sim_get w a : nth_error w a = Some (EKeep None) -> sim w same (get_box m a) (get_box m (idx w a)).
Proof.
  intros N w1 E s s' S. exists w1. split; [apply ext_refl|]. split; [exact S|]. destruct S as (B & _).
  pose proof (ext_nth _ _ _ _ E N) as N1. rewrite <- (ext_idx _ _ _ _ E N). exact (proj1 (brel_keep _ _ _ _ _ (m_nil m) B N1)).
Qed.
Lemma sim_set w a v : nth_error w a = Some (EKeep None) -> sim w same (set_box a v) (set_box (idx w a) v).
Proof.
  intros N w1 E s s' S. exists w1. split; [apply ext_refl|]. split; [|reflexivity].
  pose proof (ext_nth _ _ _ _ E N) as N1. rewrite <- (ext_idx _ _ _ _ E N). pose proof S as (B & M1 & I & F).
  split; [now apply brel_set|]. auto.
Qed.
Definition boxed (c : option V) (w : world) (a a' : nat) : Prop := nth_error w a = Some (EKeep c) /\ a' = idx w a.
Lemma sim_new w c v : (forall u, c = Some u -> v = u) -> sim w (boxed c) (new_box v) (new_box v).
Proof.
  intros C w1 E s s' S. pose proof S as (B & _). destruct (brel_len _ _ _ B) as (L1 & L2).
  exists (w1 ++ [EKeep c]). split; [now exists [EKeep c]|]. split; [apply (srel_boxes w1); [exact S|now apply brel_new]|].
  unfold boxed. rewrite L1. split; [apply new_nth|]. rewrite L2. symmetry. now apply idx_app.
Qed.
Lemma sim_gone {B} w v (Q : world -> vars -> B -> Prop) f y : (forall w1 a, ext w w1 -> nth_error w1 a = Some (EGone v) -> sim w1 Q (f a) y) -> sim w Q (bind (new_box v) f) y.
Proof.
  intros H w1 E s s' S. unfold bind, new_box. pose proof S as (B0 & _). destruct (brel_len _ _ _ B0) as (L1 & L2).
  assert (X : ext w1 (w1 ++ [EGone v])) by now exists [EGone v].
  specialize (H (w1 ++ [EGone v]) (length (boxes s)) (ext_trans _ _ _ E X)). rewrite L1 in *. specialize (H (new_nth _ _)).
  specialize (H _ (ext_refl _) _ _ (srel_boxes w1 [EGone v] s s' _ _ S (brel_out _ _ _ v B0))).
  assert (Y : St (boxes s') (funs s') (mem s') = s') by now destruct s'. rewrite Y in H.
  unfold orel in *. destruct (f _ _), (y _); try contradiction; try exact I.
  - destruct H as (w3 & E3 & S3 & H). exists w3. split; [eapply ext_trans; eassumption|auto].
  - destruct H as (-> & w3 & E3 & S3). split; [easy|]. exists w3. split; [eapply ext_trans; eassumption|auto].
Qed.
Lemma F2_len {A B} (R : A -> B -> Prop) l l' : Forall2 R l l' -> length l = length l'.
Proof. induction 1; cbn; congruence. Qed.
Lemma sim_fun w c c' : crel w c c' -> sim w same (new_fun m c) (new_fun m c').
Proof.
  intros H w1 E s s' (B & M1 & I & F). exists w1. split; [apply ext_refl|]. split; [|unfold same; now rewrite (F2_len _ _ _ F)].
  split; [exact B|]. split; [exact M1|]. split; [exact I|]. cbn [funs]. apply Forall2_app; [exact F|]. constructor; [|constructor].
  eapply crel_ext; eassumption.
Qed.

(** New locals that are no constants. *)
Lemma sim_declare : forall xs vs w sc r r', no_env xs -> vrel w sc r r' -> sim w (fun w => vrel w (plain xs sc)) (declare m xs vs r) (declare m xs vs r').
Proof.
  induction xs as [|x xs IH]; intros vs w sc r r' N R.
  - apply sim_ret. intros w1 E. eapply vrel_ext; eassumption.
  - cbn [declare]. eapply sim_bind; [apply (sim_new w None); discriminate|]. intros w1 a a' E (A & ->). rewrite plain_cons. apply IH.
    + intros H. apply N. now right.
    + constructor; [intros ->; apply N; now left|exact A|]. eapply vrel_ext; eassumption.
Qed.
(** New locals with constants. *)
Fixpoint drel (fl : list bool) (cs : list (option lval)) (vs vs' : list V) : Prop :=
  match fl, cs with
  | f :: fl, c :: cs =>
      (f = true -> c <> None) /\ (forall v, c = Some v -> valof v /\ chars = false /\ hd (m_nil m) vs = val v) /\
      (if f then drel fl cs (tl vs) vs' else hd (m_nil m) vs = hd (m_nil m) vs' /\ drel fl cs (tl vs) (tl vs'))
  | [], [] => True
  | _, _ => False
  end.
Lemma locals_cons x xs c cs sc : M_Const.locals (x :: xs) (c :: cs) sc = M_Const.locals xs cs ((x, c) :: sc).
Proof. unfold M_Const.locals. cbn [combine rev]. now rewrite <- app_assoc. Qed.
Lemma sim_locals : forall xs fl cs vs vs' w sc r r', length fl = length xs -> no_env xs -> ~ In print_name xs -> drel fl cs vs vs' -> vrel w sc r r' ->
  sim w (fun w => vrel w (M_Const.locals xs cs sc)) (declare m xs vs r) (declare m (kept fl xs) vs' r').
Proof.
  induction xs as [|x xs IH]; intros [|f fl] [|c cs] vs vs' w sc r r' L N P D R; try discriminate L; try (exfalso; exact D).
  - apply sim_ret. intros w1 E. eapply vrel_ext; eassumption.
  - cbn [length] in L. injection L as L. destruct D as (D1 & D2 & D3).
    assert (N' : no_env xs) by (intros H; apply N; now right). assert (P' : ~ In print_name xs) by (intros H; apply P; now right).
    assert (Nx : x <> env_var) by (intros ->; apply N; now left). assert (Px : x <> print_name) by (intros ->; apply P; now left).
    rewrite locals_cons. cbn [kept]. destruct f.
    + destruct c as [v|]; [|now destruct (D1 eq_refl)]. destruct (D2 v eq_refl) as (Vv & Ch & Hv). cbn [declare]. rewrite Hv.
      apply sim_gone. intros w1 a E A. apply IH; auto. apply (v_gone _ _ _ a); auto. eapply vrel_ext; eassumption.
    + destruct D3 as (E0 & D3). cbn [declare]. rewrite <- E0.
      eapply sim_bind; [apply (sim_new w (option_map val c))|].
      * intros u Q. destruct c as [v|]; [|discriminate]. cbn in Q. injection Q as <-. now apply D2.
      * intros w1 a a' E (A & ->). apply IH; auto. destruct c as [v|]; cbn [option_map] in A.
        -- destruct (D2 v eq_refl) as (Vv & Ch & _). constructor; auto. eapply vrel_ext; eassumption.
        -- constructor; auto. eapply vrel_ext; eassumption.
Qed.

(** ** Constants *)
Lemma val_true v : m_true m (val v) = is_truthy v.
Proof.
  destruct (m_true m (val v)) eqn:E; symmetry.
  - apply truthy_iff, (c_true _ _ _ _ _ OK), E.
  - apply truthy_not. intros T. apply (c_true _ _ _ _ _ OK) in T. congruence.
Qed.
Lemma token_val v : valof v -> m_const m (token v) = val v.
Proof. intros H. now apply (c_const _ _ _ _ _ OK _ _ (TOKEN v H)). Qed.
Lemma names_pnames ps : names ps = pnames ps.
Proof. unfold pnames. induction ps as [|[x|] ps IH]; cbn [names flat_map app]; congruence. Qed.
Lemma bind_ret_l {A B} (a : A) (f : A -> M B) s : bind (ret a) f s = f a s. Proof. reflexivity. Qed.
Lemma bind_bind {A B C} (x : M A) (f : A -> M B) (h : B -> M C) s : bind (bind x f) h s = bind x (fun a => bind (f a) h) s.
Proof. unfold bind. now destruct (x s). Qed.
Lemma bind_same {A B} (x : M A) (f h : A -> M B) s : (forall a s, f a s = h a s) -> bind x f s = bind x h s.
Proof. intros H. unfold bind. now destruct (x s). Qed.
Lemma bind_ret_r {A} (x : M A) s : bind x ret s = x s. Proof. unfold bind. now destruct (x s). Qed.

Section Body.
Context (c1 c2 : nat -> list V -> M (list V)).
Context (CALL : forall f args w, sim w same (c1 f args) (c2 f args)).

Definition safe (a : ask) : Prop := forall x, a = ASetGlobal x -> assigned x = true.
Lemma do_within a vs me : safe a -> intact me -> within intact (m_do m a vs me).
Proof.
  intros Sa I.
  assert (H : forall s f, In (s, f) builtin_names -> assigned (asc s) = false -> within (whole s) (m_do m a vs me)).
  { intros s f Hi A. eapply (c_whole _ _ _ _ _ OK); [exact Hi|exact (I s f Hi A)|]. intros ->. rewrite (Sa _ eq_refl) in A. discriminate. }
  revert H. generalize (m_do m a vs me) as t. clear. intros t H. induction t as [vs me|v me|f args me k IH].
  - constructor. intros s f I A. specialize (H s f I A). now inversion H.
  - constructor. intros s f I A. specialize (H s f I A). now inversion H.
  - constructor; [intros s g I A; specialize (H s g I A); now inversion H|].
    intros a me' P. apply IH. intros s g I A. specialize (H s g I A). inversion H as [| |f0 l0 m0 k0 Hm Hk]; subst. apply Hk. exact (P s g I A).
Qed.
Lemma follow_sim : forall t, within intact t -> forall w, sim w same (follow c1 t) (follow c2 t).
Proof.
  induction 1 as [vs me P|v me P|f args me k P K IH]; intros w w1 E s s' (B & Em & I & F); cbn [follow].
  - exists w1. split; [apply ext_refl|]. split; [|reflexivity]. now repeat split.
  - split; [reflexivity|]. exists w1. split; [apply ext_refl|]. now repeat split.
  - assert (S : srel w1 (St (boxes s) (funs s) me) (St (boxes s') (funs s') me)) by now repeat split.
    specialize (CALL f args w1 w1 (ext_refl _) _ _ S). unfold orel in CALL.
    destruct (c1 f args _) as [us t|v t|], (c2 f args _) as [us' t'|v' t'|]; try contradiction; [| |exact Logic.I].
    + destruct CALL as (w2 & E2 & S2 & <-). pose proof S2 as (_ & M2 & I2 & _). rewrite M2.
      specialize (IH (Returned us) (mem t) I2 w2 w2 (ext_refl _) _ _ S2). unfold orel in *.
      destruct (follow c1 _ t), (follow c2 _ t'); try contradiction; try exact Logic.I.
      * destruct IH as (w3 & E3 & IH). exists w3. split; [eapply ext_trans; eassumption|exact IH].
      * destruct IH as (-> & w3 & E3 & IH). split; [easy|]. exists w3. split; [eapply ext_trans; eassumption|exact IH].
    + destruct CALL as (<- & w2 & E2 & S2). pose proof S2 as (_ & M2 & I2 & _). rewrite M2.
      specialize (IH (Raised v) (mem t) I2 w2 w2 (ext_refl _) _ _ S2). unfold orel in *.
      destruct (follow c1 _ t), (follow c2 _ t'); try contradiction; try exact Logic.I.
      * destruct IH as (w3 & E3 & IH). exists w3. split; [eapply ext_trans; eassumption|exact IH].
      * destruct IH as (-> & w3 & E3 & IH). split; [easy|]. exists w3. split; [eapply ext_trans; eassumption|exact IH].
Qed.
Lemma sim_do w a vs : safe a -> sim w same (do_ m c1 a vs) (do_ m c2 a vs).
Proof.
  intros Sa w1 E s s' S. unfold do_. pose proof S as (_ & -> & I & _). exact (follow_sim _ (do_within a vs _ Sa I) w1 w1 (ext_refl _) s s' S).
Qed.
Ltac bnd H := eapply (sim_bind _ same); [exact H|]; let w' := fresh "w" in let a := fresh "a" in let b := fresh "b" in let E := fresh "E" in let H := fresh in intros w' a b E H; unfold same in H; subst b.
Lemma sim_do1 w a vs : safe a -> sim w same (do1 m c1 a vs) (do1 m c2 a vs).
Proof. intros Sa. bnd (sim_do w a vs Sa). apply sim_eq. Qed.
Ltac sf := let H := fresh in intros ? H; discriminate H.
Lemma sim_apply w f args : sim w same (apply m c1 f args) (apply m c2 f args).
Proof. unfold apply. destruct (m_is_fun m f); [apply CALL|apply sim_do; sf]. Qed.

Definition prel (w : world) (p p' : place V) : Prop :=
  match p, p' with
  | PBox a, PBox a' => nth_error w a = Some (EKeep None) /\ a' = idx w a
  | PGlobal x, PGlobal x' => x = x' /\ assigned x = true
  | PIndex t i, PIndex t' i' => t = t' /\ i = i'
  | _, _ => False
  end.
Lemma prel_ext w w1 p p' : ext w w1 -> prel w p p' -> prel w1 p p'.
Proof.
  intros E. destruct p, p'; cbn; auto. intros (A & ->). split; [eapply ext_nth; eassumption|]. symmetry. eapply ext_idx; eassumption.
Qed.
Lemma prel_exts w w1 ps ps' : ext w w1 -> Forall2 (prel w) ps ps' -> Forall2 (prel w1) ps ps'.
Proof. intros E. apply F2_impl. intros a b. now apply prel_ext. Qed.
Lemma sim_read w sc r r' x : vrel w sc r r' -> (forall v, look x sc <> Some (Some v)) -> sim w same (read m c1 r x) (read m c2 r' x).
Proof.
  intros R N. unfold read. pose proof (vrel_find _ _ _ _ x R) as F. destruct (look x sc) as [[v|]|].
  - now destruct (N v).
  - destruct F as (a & -> & -> & A). now apply sim_get.
  - destruct F as (-> & ->). destruct (vrel_env _ _ _ _ R) as (A & B & _). change (asc "_ENV") with env_var. rewrite A, B. apply sim_do1. sf.
Qed.
Lemma sim_place_of w sc r r' x : vrel w sc r r' -> ok sc (fun y => zeqb_list y x) -> sim w prel (place_of m r x) (place_of m r' x).
Proof.
  intros R (N & G). unfold place_of. pose proof (vrel_find _ _ _ _ x R) as F. destruct (look x sc) as [[v|]|] eqn:L.
  - specialize (N _ _ L). now rewrite zeqb_list_refl in N.
  - destruct F as (a & -> & -> & A). apply sim_ret. intros w1 E. apply (prel_ext w w1 (PBox a) (PBox (idx w a)) E). now split.
  - destruct F as (-> & ->). destruct (vrel_env _ _ _ _ R) as (A & B & _). change (asc "_ENV") with env_var. rewrite A, B. apply sim_ret.
    intros w1 E. split; [reflexivity|]. apply (G x L). apply zeqb_list_refl.
Qed.
Lemma sim_fetch w p p' : prel w p p' -> sim w same (fetch m c1 p) (fetch m c2 p').
Proof.
  destruct p, p'; cbn [prel fetch]; try contradiction.
  - intros (A & ->). now apply sim_get.
  - intros (<- & _). apply sim_do1. sf.
  - intros (-> & ->). apply sim_do1. sf.
Qed.
Lemma sim_store w p p' v : prel w p p' -> sim w same (store m c1 p v) (store m c2 p' v).
Proof.
  destruct p, p'; cbn [prel store]; try contradiction.
  - intros (A & ->). now apply sim_set.
  - intros (<- & A). eapply sim_bind; [apply sim_do|intros; apply sim_eq]. intros y Q. now injection Q as <-.
  - intros (-> & ->). eapply sim_bind; [apply sim_do; sf|intros; apply sim_eq].
Qed.
Lemma sim_stores : forall ps ps' w vs, Forall2 (prel w) ps ps' -> sim w same (stores m c1 ps vs) (stores m c2 ps' vs).
Proof.
  induction ps as [|p ps IH]; intros ps' w vs H; inversion H; subst; cbn [stores]; [apply sim_eq|].
  eapply sim_bind; [apply IH; eassumption|]. intros. apply sim_store. eapply prel_ext; eassumption.
Qed.
Lemma sim_items : forall vs w t n, sim w same (items m c1 t n vs) (items m c2 t n vs).
Proof.
  induction vs; intros; cbn [items]; [apply sim_eq|]. eapply sim_bind; [apply sim_do; sf|]. intros. apply IHvs.
Qed.
Lemma sim_walk : forall ks w v i, sim w prel (walk m c1 v i ks) (walk m c2 v i ks).
Proof.
  induction ks; intros w v i; cbn [walk]; [apply sim_ret; now split|]. bnd (sim_do1 w AIndex [v; m_str m i] ltac:(sf)). apply IHks.
Qed.

(** ** Loops *)
Definition optrel {A B} (R : world -> A -> B -> Prop) (w : world) (x : option A) (y : option B) : Prop :=
  match x, y with Some a, Some b => R w a b | None, None => True | _, _ => False end.
Lemma mono_same {A} : mono (@same A). Proof. intros w w1 a b _ E. exact E. Qed.
Lemma mono_vrel sc : mono (fun w => vrel w sc). Proof. intros w w1 a b E. now apply vrel_ext. Qed.
Lemma mono_prel : mono prel. Proof. intros w w1 a b E. now apply prel_ext. Qed.
Lemma mono_prels : mono (fun w => Forall2 (prel w)). Proof. intros w w1 a b E. now apply prel_exts. Qed.
Lemma sim_out {A B} w (R : world -> A -> B -> Prop) a b : mono R -> R w a b -> sim w R (ret a) (ret b).
Proof. intros Mo H. apply sim_ret. intros w1 E. exact (Mo _ _ _ _ E H). Qed.
Lemma sim_loop {A B} (R : world -> A -> B -> Prop) : mono R -> forall n w x y, sim w (optrel R) x y -> sim w R (loop n x) (loop n y).
Proof.
  intros Mo. induction n; intros w x y H; cbn [loop]; [apply sim_never|]. apply (sim_bind w (optrel R)); [exact H|].
  intros w1 [a|] [b|] E Q; try contradiction; [now apply sim_out|]. apply IHn. eapply sim_ext; eassumption.
Qed.
(** How something ends; [N]: the locals behind it, [L]: the jumps. *)
Definition grel (N : world -> vars -> vars -> Prop) (L : list Z -> Prop) (w : world) (u v : sig) : Prop :=
  match u, v with
  | Next r, Next r' => N w r r'
  | Break, Break => True
  | Return vs, Return vs' => vs = vs'
  | Goto l, Goto l' => l = l' /\ L l
  | _, _ => False
  end.
Lemma mono_grel N L : mono N -> mono (grel N L).
Proof. intros Mo w w1 u v E. destruct u, v; cbn; auto. now apply Mo. Qed.
Lemma after_rel N L (N2 : world -> vars -> vars -> Prop) w r r' u v : N2 w r r' -> grel N L w u v -> optrel (grel N2 L) w (after r u) (after r' v).
Proof. destruct u, v; cbn; auto; contradiction. Qed.
Lemma leave_rel N L (N2 : world -> vars -> vars -> Prop) w r r' u v : N2 w r r' -> grel N L w u v -> grel N2 L w (leave r u) (leave r' v).
Proof. destruct u, v; cbn; auto; contradiction. Qed.
Lemma sim_for_num N L (N2 : world -> vars -> vars -> Prop) r r' : mono N2 -> forall n w i z step f h, N2 w r r' ->
  (forall w1 v, ext w w1 -> sim w1 (grel N L) (f v) (h v)) ->
  sim w (grel N2 L) (for_num m c1 n r i z step f) (for_num m c2 n r' i z step h).
Proof.
  intros Mo. induction n; intros w i z step f h Hr H; cbn [for_num]; [apply sim_never|].
  bnd (sim_do1 w AForTest [i; z; step] ltac:(sf)). apply sim_if.
  - eapply sim_bind; [apply H; assumption|]. intros w1 u v E1 Q.
    pose proof (after_rel _ _ N2 w1 r r' _ _ (Mo _ _ _ _ (ext_trans _ _ _ E E1) Hr) Q) as Q'.
    destruct (after r u), (after r' v); cbn [optrel] in Q'; try contradiction; [apply sim_out; [now apply mono_grel|exact Q']|].
    bnd (sim_do1 w1 AForNext [i; step] ltac:(sf)). apply IHn.
    + eapply Mo; [|exact Hr]. eauto using ext_trans.
    + intros w3 v0 E3. apply H. eauto using ext_trans.
  - apply sim_ret. intros w1 E1. cbn. eapply Mo; [|exact Hr]. eauto using ext_trans.
Qed.
Lemma sim_for_in N L (N2 : world -> vars -> vars -> Prop) r r' : mono N2 -> forall n w x y z f h, N2 w r r' ->
  (forall w1 v, ext w w1 -> sim w1 (grel N L) (f v) (h v)) ->
  sim w (grel N2 L) (for_in m c1 n r x y z f) (for_in m c2 n r' x y z h).
Proof.
  intros Mo. induction n; intros w x y z f h Hr H; cbn [for_in]; [apply sim_never|].
  bnd (sim_apply w x [y; z]). apply sim_if.
  - apply sim_ret. intros w1 E1. cbn. eapply Mo; [|exact Hr]. eauto using ext_trans.
  - eapply sim_bind; [apply H; assumption|]. intros w1 u v E1 Q.
    pose proof (after_rel _ _ N2 w1 r r' _ _ (Mo _ _ _ _ (ext_trans _ _ _ E E1) Hr) Q) as Q'.
    destruct (after r u), (after r' v); cbn [optrel] in Q'; try contradiction; [apply sim_out; [now apply mono_grel|exact Q']|].
    apply IHn.
    + eapply Mo; [|exact Hr]. eauto using ext_trans.
    + intros w3 v0 E3. apply H. eauto using ext_trans.
Qed.

(** ** Expressions *)
Context (n : nat) (dots : list V).
Notation ex1 := (r_ex m c1 dots). Notation ex2 := (r_ex m c2 dots).
Notation exs1 := (r_exs m c1 dots). Notation exs2 := (r_exs m c2 dots).
Notation its1 := (r_its m c1 dots). Notation its2 := (r_its m c2 dots).
Notation st1 := (r_st m c1 n dots). Notation st2 := (r_st m c2 n dots).
Notation blk1 := (r_blk m c1 n dots). Notation blk2 := (r_blk m c2 n dots).
Notation ifs1 := (r_ifs m c1 n dots). Notation ifs2 := (r_ifs m c2 n dots).
Notation els1 := (r_els m c1 n dots). Notation els2 := (r_els m c2 n dots).

Definition rq (mu : bool) (_ : world) (vs vs' : list V) : Prop := if mu then vs = vs' else first m vs = first m vs'.
Lemma rq_first mu w vs vs' : rq mu w vs vs' -> first m vs = first m vs'.
Proof. destruct mu; cbn; congruence. Qed.
Lemma rq_same mu w (vs : list V) : rq mu w vs vs. Proof. now destruct mu. Qed.
(** What is known of an expression that became [k]. *)
Definition good (w : world) (mu : bool) (x : M (list V)) (k : ex * option lval) (r' : vars) : Prop :=
  sim w (rq mu) x (ex2 (fst k) r') /\ forall v, snd k = Some v -> valof v /\ pure w [val v] x (ex2 (fst k) r').
Lemma good_plain w mu x e r' : sim w same x (ex2 e r') -> good w mu x (e, None) r'.
Proof. intros H. split; [|discriminate]. eapply sim_weak; [|exact H]. intros ? ? ? _ ->. apply rq_same. Qed.
Lemma good_const w mu x e v r' : valof v -> pure w [val v] x (ex2 e r') -> good w mu x (set_const token chars longer e v) r'.
Proof.
  intros Vv P. unfold set_const.
  assert (Q : pure w [val v] x (ex2 (fst (if chars && longer v e then (e, Some v) else (XConst (token v), Some v))) r')).
  { destruct (chars && longer v e); cbn [fst]; [exact P|]. intros w1 E s s' S. destruct (P w1 E s s' S) as (A & _). split; [exact A|].
    cbn [r_ex]. unfold ret. now rewrite token_val. }
  split.
  - eapply sim_weak; [|exact (pure_sim _ _ _ _ Q)]. intros ? ? ? _ ->. apply rq_same.
  - intros u E. assert (u = v) as -> by (destruct (chars && longer v e); cbn in E; congruence). now split.
Qed.
Lemma good_first w mu x k r' : good w mu x k r' -> good w false x k r'.
Proof. intros (A & B). split; [|exact B]. eapply sim_weak; [|exact A]. intros ? ? ? _ Q. exact (rq_first _ _ _ _ Q). Qed.

(** One value. *)
Lemma one_value c e r s vs s' : many e = false -> r_ex m c dots e r s = Gives vs s' -> exists v, vs = [v].
Proof.
  assert (B : forall A (x : M A) (f : A -> M (list V)) t t' us, bind x f t = Gives us t' -> exists a t1, f a t1 = Gives us t').
  { intros A x f t t' us H. unfold bind in H. destruct (x t); try discriminate. eauto. }
  destruct e; intros N H; try discriminate N; cbn [r_ex] in H;
    try (repeat (apply B in H; destruct H as (? & ? & H)); unfold ret in H; injection H as <- _; eauto; fail).
  apply B in H. destruct H as (a & t & H). destruct (is_op op "and"); [|destruct (is_op op "or")].
  - destruct (test m a); [apply B in H; destruct H as (? & ? & H)|]; unfold ret in H; injection H as <- _; eauto.
  - destruct (test m a); [|apply B in H; destruct H as (? & ? & H)]; unfold ret in H; injection H as <- _; eauto.
  - repeat (apply B in H; destruct H as (? & ? & H)); unfold ret in H; injection H as <- _; eauto.
Qed.

Definition tgt (sc : scope) (e : ex) : ex := match e with XVar x => XVar x | e => fst (cx sc e) end.
Definition PE (e : ex) : Prop :=
  (forall w sc r r' mu, legal_ex e -> fine_ex mu e -> ok sc (fun x => sets_ex x e) -> vrel w sc r r' -> good w mu (ex1 e r) (cx sc e) r') /\
  (forall w sc r r', is_target e -> legal_ex e -> fine_ex false e -> ok sc (fun x => is_var x e || sets_ex x e) -> vrel w sc r r' ->
    sim w prel (r_place m c1 dots e r) (r_place m c2 dots (tgt sc e) r')).
Fixpoint PEs (es : exs) : Prop := match es with XNil => True | XCons e es => PE e /\ PEs es end.

(** Folding makes no "..." or call out of anything else. *)
Lemma bin_and_or op o : bin_of op = Some o -> (o = BAnd \/ o = BOr) -> and_or op = true.
Proof.
  intros B H. destruct (bin_named _ _ B) as [(-> & ->)|[(-> & ->)|(A1 & A2 & _)]]; [reflexivity|reflexivity|]. destruct H; contradiction.
Qed.
Lemma many_const e v : many e = false -> many (fst (set_const token chars longer e v)) = false.
Proof. intros H. unfold set_const. now destruct (chars && longer v e). Qed.
Lemma many_to e r : many e = false -> many (fst (fold_to token chars longer e r)) = false.
Proof. intros H. destruct r as [[v|]|]; cbn [fold_to]; auto using many_const. Qed.
Lemma many_fold sc : forall e, fine_ex true e -> several e = false -> many (fst (cx sc e)) = false.
Proof.
  fix IH 1. intros [t| |x|ps b|e|op e|op a b|e k|a b|f short args|f k short args|i] F N; try discriminate N; cbn [c_ex fst]; try reflexivity.
  - unfold fold_var. destruct (look x sc) as [[v|]|]; auto using many_const.
  - unfold fold_un. destruct (un_of op), (snd (cx sc e)); auto using many_to.
  - unfold fold_bin. destruct (bin_of op) as [o|] eqn:B; [|reflexivity]. destruct (snd (cx sc a)) as [u|]; [|reflexivity].
    destruct (snd (cx sc b)) as [v|]; [now apply many_to|]. cbn [fine_ex] in F. destruct F as (_ & F).
    assert (K : o = BAnd \/ o = BOr -> many (fst (cx sc b)) = false).
    { intros H. rewrite (bin_and_or op o B H) in F. destruct F as (F1 & F2). apply IH; auto. }
    destruct o; try reflexivity; destruct (is_truthy u); cbn [fst]; auto using many_const.
Qed.

(** ** Lists *)
Lemma exs1_cons e e2 es r : exs1 (XCons e (XCons e2 es)) r = bind (ex1 e r) (fun vs => bind (exs1 (XCons e2 es) r) (fun ws => ret (first m vs :: ws))).
Proof. reflexivity. Qed.
Lemma exs2_cons e e2 es r : exs2 (XCons e (XCons e2 es)) r = bind (ex2 e r) (fun vs => bind (exs2 (XCons e2 es) r) (fun ws => ret (first m vs :: ws))).
Proof. reflexivity. Qed.
Lemma exs_sim sc : forall es w r r', PEs es -> legal_exs es -> fine_exs es -> ok sc (fun x => sets_exs x es) -> vrel w sc r r' ->
  sim w same (exs1 es r) (exs2 (fst (cxs sc es)) r') /\
  forall vs, all_known (snd (cxs sc es)) = Some vs -> Forall valof vs /\ pure w (map val vs) (exs1 es r) (exs2 (fst (cxs sc es)) r').
Proof.
  induction es as [|e es IH]; intros w r r' P L F O R.
  - split; [apply sim_eq|]. intros vs H. injection H as <-. split; [constructor|]. intros w1 E s s' S. now split.
  - destruct P as (Pe & P), L as (Le & L). apply ok_or in O. destruct O as (Oe & O). destruct es as [|e2 es].
    + destruct (proj1 Pe w sc r r' true Le F Oe R) as (A & B). split; [exact A|].
      intros vs H. change (match snd (cx sc e) with Some v => Some [v] | None => None end = Some vs) in H. destruct (snd (cx sc e)) as [v|]; [|discriminate H]. injection H as <-.
      destruct (B v eq_refl) as (Vv & Pv). split; [now constructor|exact Pv].
    + destruct F as (Fe & F). destruct (proj1 Pe w sc r r' false Le Fe Oe R) as (A & B).
      destruct (IH w r r' P L F O R) as (C & D). rewrite exs1_cons.
      change (fst (cxs sc (XCons e (XCons e2 es)))) with (XCons (fst (cx sc e)) (fst (cxs sc (XCons e2 es)))).
      change (snd (cxs sc (XCons e (XCons e2 es)))) with (snd (cx sc e) :: snd (cxs sc (XCons e2 es))).
      assert (X : exs2 (XCons (fst (cx sc e)) (fst (cxs sc (XCons e2 es)))) r' = bind (ex2 (fst (cx sc e)) r') (fun vs => bind (exs2 (fst (cxs sc (XCons e2 es))) r') (fun ws => ret (first m vs :: ws)))) by reflexivity.
      rewrite X. split.
      * eapply sim_bind; [exact A|]. intros w1 vs vs' E Q. cbn [rq] in Q. rewrite Q.
        bnd (sim_ext _ _ _ _ _ E C). apply sim_eq.
      * intros vs H. cbn [all_known] in H. destruct (snd (cx sc e)) as [v|]; [|discriminate H].
        destruct (all_known (snd (cxs sc (XCons e2 es)))) as [us|]; [|discriminate H]. injection H as <-.
        destruct (B v eq_refl) as (Vv & Pv). destruct (D us eq_refl) as (Vu & Pu). split; [now constructor|].
        intros w1 E s s' S. destruct (Pv w1 E s s' S) as (Q1 & Q2), (Pu w1 E s s' S) as (Q3 & Q4). unfold bind. rewrite Q1, Q2, Q3, Q4. now split.
Qed.
Lemma places_sim sc : forall ts w r r', PEs ts -> legal_exs ts -> fine_targets ts -> ok sc (fun x => sets_tgts x ts) -> vrel w sc r r' ->
  sim w (fun w => Forall2 (prel w)) (r_places m c1 dots ts r) (r_places m c2 dots (ctg sc ts) r').
Proof.
  induction ts as [|t ts IH]; intros w r r' P L F O R.
  - apply sim_ret. constructor.
  - destruct P as (Pt & P), L as (Lt & L), F as (T & Ft & F). apply ok_or in O. destruct O as (Ot & O).
    change (ctg sc (XCons t ts)) with (XCons (tgt sc t) (ctg sc ts)). cbn [r_places].
    eapply sim_bind; [exact (proj2 Pt w sc r r' T Lt Ft Ot R)|]. intros w1 p p' E Q.
    eapply sim_bind; [exact (sim_ext _ _ _ _ _ E (IH w r r' P L F O R))|]. intros w2 ps ps' E2 Qs.
    apply sim_ret. intros w3 E3. constructor; [eapply prel_ext; [|exact Q]; eauto using ext_trans|]. eapply prel_exts; eassumption.
Qed.

(** Local statements: what is erased and what is left. *)
Fixpoint flok (ends : bool) (fl : list bool) (cs kn : list (option lval)) : Prop :=
  match fl, cs with
  | f :: fl, c :: cs =>
      (f = true -> c <> None) /\
      (forall v, c = Some v -> chars = false /\ match kn with k :: _ => k = Some v | [] => ends = false /\ v = VNil end) /\
      flok ends fl cs (tl kn)
  | [], [] => True
  | _, _ => False
  end.
Lemma drel_nil ends : forall fl cs vs', flok ends fl cs [] -> vs' = [] -> drel fl cs [] vs'.
Proof.
  induction fl as [|f fl IH]; intros [|c cs] vs' H ->; try (exfalso; exact H); [exact I|]. destruct H as (A & B & C). cbn [drel tl] in *.
  split; [exact A|]. split.
  - intros v E. destruct (B v E) as (Ch & _ & ->). split; [exact I|]. split; [exact Ch|]. exact (c_nil _ _ _ _ _ OK).
  - destruct f; [|split; [reflexivity|]]; auto.
Qed.
Lemma drel_same : forall fl cs ws, flok true fl cs [] -> drel fl cs ws ws.
Proof.
  induction fl as [|f fl IH]; intros [|c cs] ws H; try (exfalso; exact H); [exact I|]. destruct H as (A & B & C). cbn [drel tl] in *.
  assert (N : c = None) by (destruct c as [v|]; [destruct (B v eq_refl) as (_ & Q & _); discriminate Q|easy]). subst c.
  split; [exact A|]. split; [discriminate|]. destruct f; [now destruct (A eq_refl)|]. auto.
Qed.
Lemma drel_all : forall fl es cs ws u v, kept_exs fl es = XNil -> (length fl <= len_exs es)%nat -> drel fl cs ws u -> drel fl cs ws v.
Proof.
  induction fl as [|f fl IH]; intros [|e es] [|c cs] ws u v K L D; try (exfalso; exact D); try exact I; cbn [length len_exs] in L; [lia|].
  destruct D as (D1 & D2 & D3). cbn [kept_exs] in K. destruct f; [|discriminate K].
  split; [exact D1|]. split; [exact D2|]. apply (IH es cs _ u); [exact K|lia|exact D3].
Qed.
Lemma sim_map_left {A B C} w (R : world -> A -> B -> Prop) (Q : world -> C -> B -> Prop) x y (f : A -> C) : mono Q -> sim w R x y ->
  (forall w1 a b, ext w w1 -> R w1 a b -> Q w1 (f a) b) -> sim w Q (bind x (fun a => ret (f a))) y.
Proof.
  intros Mo H K. apply (sim_right w _ _ _ (bind y ret)); [intros s; symmetry; apply bind_ret_r|].
  eapply sim_bind; [exact H|]. intros w1 a b E P. apply sim_out; [exact Mo|]. now apply K.
Qed.
Lemma mono_drel fl cs : mono (fun _ => drel fl cs). Proof. intros w w1 a b _ H. exact H. Qed.
Lemma len_cxs sc : forall es, len_exs (fst (cxs sc es)) = count_exs es.
Proof. induction es; cbn; congruence. Qed.
Lemma many_last e es : last_many (XCons e es) = match es with XNil => many e | _ => last_many es end.
Proof. destruct es; reflexivity. Qed.
Lemma local_vals sc : forall es w r r' fl cs, PEs es -> legal_exs es -> fine_exs es -> ok sc (fun x => sets_exs x es) -> vrel w sc r r' ->
  flok (last_many (fst (cxs sc es))) fl cs (snd (cxs sc es)) -> (length fl <= count_exs es \/ only_last es)%nat ->
  sim w (fun _ => drel fl cs) (exs1 es r) (exs2 (kept_exs fl (fst (cxs sc es))) r').
Proof.
  induction es as [|e es IH]; intros w r r' fl cs P L F O R K G.
  { assert (X : kept_exs fl XNil = XNil) by now destruct fl. cbn [c_exs fst]. rewrite X. apply sim_ret. intros _ _. eapply drel_nil; [exact K|reflexivity]. }
  destruct fl as [|f fl], cs as [|c cs]; try (exfalso; exact K).
  { eapply sim_weak; [|exact (proj1 (exs_sim sc _ w r r' P L F O R))]. intros. exact I. }
  destruct P as (Pe & P), L as (Le & L). apply ok_or in O. destruct O as (Oe & O).
  change (snd (cxs sc (XCons e es))) with (snd (cx sc e) :: snd (cxs sc es)) in K.
  change (fst (cxs sc (XCons e es))) with (XCons (fst (cx sc e)) (fst (cxs sc es))) in *. rewrite many_last in K.
  destruct K as (K1 & K2 & K3). cbn [tl] in K3. destruct es as [|e2 es].
  - cbn [c_exs fst snd] in K3. destruct (proj1 Pe w sc r r' true Le F Oe R) as (A & B).
    destruct f.
    + destruct c as [v|]; [|now destruct (K1 eq_refl)]. destruct (K2 v eq_refl) as (Ch & Kv). destruct (B v Kv) as (Vv & Pv).
      assert (X : kept_exs (true :: fl) (XCons (fst (cx sc e)) (fst (cxs sc XNil))) = XNil) by (destruct fl; reflexivity). rewrite X.
      apply (sim_left w _ _ (bind (ex1 e r) ret)); [intros s; symmetry; apply bind_ret_r|].
      apply (pure_left _ _ _ _ _ _ _ Pv). apply sim_ret. intros _ _. cbn [drel hd tl]. split; [discriminate|]. split.
      * intros u Q. injection Q as <-. auto.
      * eapply drel_nil; [exact K3|reflexivity].
    + assert (X : kept_exs (false :: fl) (XCons (fst (cx sc e)) (fst (cxs sc XNil))) = XCons (fst (cx sc e)) XNil) by (destruct fl; reflexivity). rewrite X.
      change (sim w (fun _ => drel (false :: fl) (c :: cs)) (ex1 e r) (ex2 (fst (cx sc e)) r')).
      destruct (snd (cx sc e)) as [v|] eqn:Kn.
      * destruct (B v eq_refl) as (Vv & Pv). eapply (sim_weak w (fun _ vs vs' => vs = [val v] /\ vs' = [val v])).
        -- intros ? vs vs' _ (-> & ->). cbn [drel hd tl]. split; [discriminate|]. split.
           ++ intros u Q. destruct (K2 u Q) as (Ch & Q'). injection Q' as <-. auto.
           ++ split; [reflexivity|]. eapply drel_nil; [exact K3|reflexivity].
        -- intros w1 E s s' S. destruct (Pv w1 E s s' S) as (-> & ->). exists w1. split; [apply ext_refl|]. split; [exact S|]. now split.
      * assert (N : c = None) by (destruct c as [v|]; [destruct (K2 v eq_refl) as (_ & Q); discriminate Q|easy]). subst c.
        eapply sim_weak; [|apply (sim_post w (rq true) (fun vs' => many (fst (cx sc e)) = false -> exists v, vs' = [v])); [|exact A]].
        -- cbn [rq]. intros ? vs ? _ (<- & One). cbn [drel]. split; [discriminate|]. split; [discriminate|]. split; [reflexivity|].
           destruct (many (fst (cx sc e))).
           ++ apply drel_same. exact K3.
           ++ destruct (One eq_refl) as (v & ->). eapply drel_nil; [exact K3|reflexivity].
        -- intros s vs s' H N. eapply one_value; eassumption.
  - destruct F as (Fe & F). destruct (proj1 Pe w sc r r' false Le Fe Oe R) as (A & B).
    change (match fst (cxs sc (XCons e2 es)) with XNil => many (fst (cx sc e)) | XCons _ _ => last_many (fst (cxs sc (XCons e2 es))) end) with (last_many (fst (cxs sc (XCons e2 es)))) in K3.
    assert (G' : (length fl <= count_exs (XCons e2 es) \/ only_last (XCons e2 es))%nat).
    { destruct G as [G|G]; [left; cbn [length count_exs] in *; lia|right; exact (proj2 (proj2 G))]. }
    pose proof (IH w r r' fl cs P L F O R K3 G') as H. rewrite exs1_cons.
    assert (X : forall es', kept_exs (f :: fl) (XCons (fst (cx sc e)) es') = if f then kept_exs fl es' else XCons (fst (cx sc e)) (kept_exs fl es')) by reflexivity.
    rewrite X. clear X. destruct f.
    + destruct c as [v|]; [|now destruct (K1 eq_refl)]. destruct (K2 v eq_refl) as (Ch & Kv). destruct (B v Kv) as (Vv & Pv).
      apply (pure_left _ _ _ _ _ _ _ Pv). apply (sim_map_left w _ _ _ _ (fun ws => first m [val v] :: ws) (mono_drel _ _) H).
      intros _ ws ws' _ D. cbn [drel hd tl first]. split; [discriminate|]. split; [|exact D]. intros u Q. injection Q as <-. auto.
    + assert (Hd : forall w1 vs vs' ws ws', rq false w1 vs vs' -> (forall v, snd (cx sc e) = Some v -> vs = [val v]) -> drel fl cs ws ws' ->
        drel (false :: fl) (c :: cs) (first m vs :: ws) (first m vs' :: ws')).
      { intros w1 vs vs' ws ws' Q One D. cbn [drel hd tl]. split; [discriminate|]. split; [|split; [exact Q|exact D]].
        intros v Q'. destruct (K2 v Q') as (Ch & Kv). destruct (B v Kv) as (Vv & _). split; [exact Vv|]. split; [exact Ch|]. rewrite (One v Kv). reflexivity. }
      assert (A' : sim w (fun w vs vs' => rq false w vs vs' /\ (forall v, snd (cx sc e) = Some v -> vs = [val v])) (ex1 e r) (ex2 (fst (cx sc e)) r')).
      { destruct (snd (cx sc e)) as [v|].
        - destruct (B v eq_refl) as (_ & Pv). intros w1 E s s' S. destruct (Pv w1 E s s' S) as (-> & ->). exists w1. split; [apply ext_refl|]. split; [exact S|].
          split; [reflexivity|]. intros u Q. now injection Q as <-.
        - eapply sim_weak; [|exact A]. intros w1 vs vs' _ Q. split; [exact Q|discriminate]. }
      destruct (kept_exs fl (fst (cxs sc (XCons e2 es)))) as [|e3 es3] eqn:Kept.
      * assert (Z0 : forall s b s', exs2 XNil r' s = Gives b s' -> b = []) by (intros s b s' X; change (Gives (@nil V) s = Gives b s') in X; congruence).
        apply (sim_right w _ _ _ (bind (ex2 (fst (cx sc e)) r') (fun vs' => bind (exs2 XNil r') (fun _ => ret vs')))).
        { intros s. symmetry. apply bind_ret_r. }
        eapply sim_bind; [exact (sim_post w _ (fun vs' => many (fst (cx sc e)) = false -> exists v, vs' = [v]) _ _ (fun s vs s' X N => one_value c2 _ r' s vs s' N X) A')|].
        intros w1 vs vs' E ((Q & One) & Mn).
        eapply sim_bind; [exact (sim_ext _ _ _ _ _ E (sim_post w _ (fun ws' => ws' = []) _ _ Z0 H))|]. intros w2 ws ws' E2 (D & Z).
        apply sim_ret. intros w3 _.
        assert (D' : drel fl cs ws (tl vs')).
        { destruct G as [G|(N1 & N2 & _)].
          - eapply drel_all; [exact Kept| |exact D]. rewrite len_cxs. cbn [length count_exs] in *. lia.
          - destruct (Mn (many_fold sc e N2 N1)) as (v & ->). cbn [tl].
            now subst. }
        specialize (Hd w3 vs vs' ws (tl vs') Q One D'). cbn [drel hd tl] in Hd |- *. exact Hd.
      * rewrite exs2_cons. eapply sim_bind; [exact A'|]. intros w1 vs vs' E (Q & One).
        eapply sim_bind; [exact (sim_ext _ _ _ _ _ E H)|]. intros w2 ws ws' E2 D. apply sim_ret. intros w3 _. exact (Hd w3 _ _ _ _ Q One D).
Qed.

(** ** Operators and builtins on constants *)
Lemma do_done c a vs us s : m_do m a vs (mem s) = Done us (mem s) -> do_ m c a vs s = Gives us s.
Proof. intros H. unfold do_. rewrite H. cbn [follow]. now destruct s. Qed.
Lemma do1_done c a vs u s : m_do m a vs (mem s) = Done [u] (mem s) -> do1 m c a vs s = Gives u s.
Proof. intros H. unfold do1, bind. rewrite (do_done _ _ _ _ _ H). reflexivity. Qed.
Lemma un_run c e r s op o v u : un_of op = Some o -> valof v -> unary_means lang o v u -> r_ex m c dots e r s = Gives [val v] s ->
  r_ex m c dots (XUn op e) r s = Gives [val u] s.
Proof.
  intros U Vv Mn H. cbn [r_ex]. unfold bind at 1. rewrite H. destruct (un_named _ _ U) as (nm & -> & I). unfold bind.
  rewrite (do1_done c _ _ (val u) s); [reflexivity|]. exact (c_unary _ _ _ _ _ OK nm o v u (mem s) I Vv Mn).
Qed.
Lemma un_good w mu e k op r r' : (forall mu, mu = false -> good w mu (ex1 e r) k r') -> good w mu (ex1 (XUn op e) r) (fold_un lang token chars longer op k) r'.
Proof.
  intros H. specialize (H false eq_refl). destruct H as (A & B).
  assert (X : sim w same (ex1 (XUn op e) r) (ex2 (XUn op (fst k)) r')).
  { cbn [r_ex]. eapply sim_bind; [exact A|]. intros w1 vs vs' E Q. cbn [rq] in Q. rewrite Q. bnd (sim_do1 w1 (AUn op) [first m vs'] ltac:(sf)). apply sim_eq. }
  unfold fold_un. destruct (un_of op) as [o|] eqn:U; [|now apply good_plain]. destruct (snd k) as [v|] eqn:K; [|now apply good_plain].
  destruct (B v eq_refl) as (Vv & Pv). destruct (const_unary lang o v) as [[u|]|] eqn:C; cbn [fold_to]; [|now apply good_plain|now apply good_plain].
  pose proof (unary_sound _ _ _ _ Vv C) as Mn. apply good_const; [eapply unary_value; exact Mn|].
  intros w1 E s s' S. destruct (Pv w1 E s s' S) as (Q1 & Q2). split; eapply un_run; eassumption.
Qed.
Lemma bin_run c a b r s op o u v t : bin_of op = Some o -> valof u -> valof v -> const_binary o u v = Ok (Some t) ->
  r_ex m c dots a r s = Gives [val u] s -> r_ex m c dots b r s = Gives [val v] s -> r_ex m c dots (XBin op a b) r s = Gives [val t] s.
Proof.
  intros B Vu Vv C Ha Hb. pose proof (binary_sound lang _ _ _ _ Vu Vv C) as Mn. cbn [r_ex]. unfold bind at 1. rewrite Ha.
  destruct (bin_named _ _ B) as [(-> & ->)|[(-> & ->)|(_ & _ & -> & -> & nm & -> & I)]].
  - change (is_op (asc "and") "and") with true. cbn iota. unfold test. cbn [first hd]. rewrite val_true.
    cbn [const_binary] in C. unfold lua_and in C. injection C as C. destruct (is_truthy u); [|subst t; reflexivity].
    unfold bind. rewrite Hb. subst t. reflexivity.
  - change (is_op (asc "or") "and") with false. change (is_op (asc "or") "or") with true. cbn iota. unfold test. cbn [first hd]. rewrite val_true.
    cbn [const_binary] in C. unfold lua_or in C. injection C as C. destruct (is_truthy u); [subst t; reflexivity|].
    unfold bind. rewrite Hb. subst t. reflexivity.
  - cbn iota. unfold bind. rewrite Hb. rewrite (do1_done c _ _ (val t) s); [reflexivity|].
    exact (c_binary _ _ _ _ _ OK nm o u v t (mem s) I Vu Vv Mn).
Qed.
Lemma and_run c a b r s u : is_truthy u = false -> r_ex m c dots a r s = Gives [val u] s -> r_ex m c dots (XBin (asc "and") a b) r s = Gives [val u] s.
Proof.
  intros T Ha. cbn [r_ex]. unfold bind at 1. rewrite Ha. change (is_op (asc "and") "and") with true. cbn iota. unfold test. cbn [first hd]. now rewrite val_true, T.
Qed.
Lemma or_run c a b r s u : is_truthy u = true -> r_ex m c dots a r s = Gives [val u] s -> r_ex m c dots (XBin (asc "or") a b) r s = Gives [val u] s.
Proof.
  intros T Ha. cbn [r_ex]. unfold bind at 1. rewrite Ha. change (is_op (asc "or") "and") with false. change (is_op (asc "or") "or") with true. cbn iota. unfold test. cbn [first hd]. now rewrite val_true, T.
Qed.
(** the right hand side takes the place *)
Lemma right_sim w mu x k r' : good w mu x k r' -> (mu = true -> many (fst k) = false) ->
  sim w (rq mu) (bind x (fun ws => ret [first m ws])) (ex2 (fst k) r').
Proof.
  intros (A & _) N. apply (sim_map_left w (fun w a b => rq mu w a b /\ (many (fst k) = false -> exists v, b = [v])) _ _ _ (fun ws => [first m ws])).
  - intros w0 w1 a b _ H. exact H.
  - apply sim_post; [|exact A]. intros s vs s' H Mn. eapply one_value; eassumption.
  - intros w1 ws ws' E (Q & One). destruct mu; cbn [rq] in *.
    + destruct (One (N eq_refl)) as (v & ->). now subst.
    + exact Q.
Qed.
Lemma bin_good w mu a b op r r' sc : good w false (ex1 a r) (cx sc a) r' ->
  good w (if and_or op then mu else false) (ex1 b r) (cx sc b) r' ->
  (and_or op = true -> mu = true -> many (fst (cx sc b)) = false) ->
  good w mu (ex1 (XBin op a b) r) (fold_bin token chars longer op (cx sc a) (cx sc b)) r'.
Proof.
  intros (A & A2) Hb N. pose proof (good_first _ _ _ _ _ Hb) as (B & B2).
  assert (X : sim w same (ex1 (XBin op a b) r) (ex2 (XBin op (fst (cx sc a)) (fst (cx sc b))) r')).
  { cbn [r_ex]. eapply sim_bind; [exact A|]. intros w1 vs vs' E Q. cbn [rq] in Q. unfold test. rewrite Q.
    assert (Y : sim w1 same (bind (ex1 b r) (fun ws => ret [first m ws])) (bind (ex2 (fst (cx sc b)) r') (fun ws => ret [first m ws]))).
    { eapply sim_bind; [exact (sim_ext _ _ _ _ _ E B)|]. intros w2 ws ws' E2 Q2. cbn [rq] in Q2. rewrite Q2. apply sim_eq. }
    apply sim_if; [apply sim_if; [exact Y|apply sim_eq]|]. apply sim_if; [apply sim_if; [apply sim_eq|exact Y]|].
    eapply sim_bind; [exact (sim_ext _ _ _ _ _ E B)|]. intros w2 ws ws' E2 Q2. cbn [rq] in Q2. rewrite Q2.
    bnd (sim_do1 w2 (ABin op) [first m vs'; first m ws'] ltac:(sf)). apply sim_eq. }
  unfold fold_bin. destruct (bin_of op) as [o|] eqn:O; [|now apply good_plain]. destruct (snd (cx sc a)) as [u|] eqn:Ku; [|now apply good_plain].
  destruct (A2 u eq_refl) as (Vu & Pu). destruct (snd (cx sc b)) as [v|] eqn:Kv.
  - destruct (B2 v eq_refl) as (Vv & Pv). destruct (const_binary o u v) as [[t|]|] eqn:C; cbn [fold_to]; [|now apply good_plain|now apply good_plain].
    apply good_const; [eapply binary_value; [exact Vu|exact Vv|]; exact (binary_sound lang _ _ _ _ Vu Vv C)|].
    intros w1 E s s' S. destruct (Pu w1 E s s' S) as (Q1 & Q2), (Pv w1 E s s' S) as (Q3 & Q4). split; [exact (bin_run c1 _ _ _ _ op o u v t O Vu Vv C Q1 Q3)|exact (bin_run c2 _ _ _ _ op o u v t O Vu Vv C Q2 Q4)].
  - pose proof (bin_and_or op o O) as AO.
    destruct o; try now apply good_plain.
    + specialize (AO (or_intror eq_refl)). destruct (bin_named _ _ O) as [(D & _)|[(_ & ->)|(_ & D & _)]]; [discriminate D| |exfalso; apply D; reflexivity].
      destruct (is_truthy u) eqn:T.
      * apply good_const; [exact Vu|]. intros w1 E s s' S. destruct (Pu w1 E s s' S) as (Q1 & Q2). split; now apply or_run.
      * rewrite AO in Hb. specialize (N AO). split; [|discriminate]. cbn [fst]. cbn [r_ex]. apply (pure_left _ _ _ _ _ _ _ Pu).
        change (is_op (asc "or") "and") with false. change (is_op (asc "or") "or") with true. cbn iota. unfold test. cbn [first hd]. rewrite val_true, T.
        apply right_sim; assumption.
    + specialize (AO (or_introl eq_refl)). destruct (bin_named _ _ O) as [(_ & ->)|[(D & _)|(D & _)]]; [|discriminate D|exfalso; apply D; reflexivity].
      destruct (is_truthy u) eqn:T.
      * rewrite AO in Hb. specialize (N AO). split; [|discriminate]. cbn [fst]. cbn [r_ex]. apply (pure_left _ _ _ _ _ _ _ Pu).
        change (is_op (asc "and") "and") with true. cbn iota. unfold test. cbn [first hd]. rewrite val_true, T. apply right_sim; assumption.
      * apply good_const; [exact Vu|]. intros w1 E s s' S. destruct (Pu w1 E s s' S) as (Q1 & Q2). split; now apply and_run.
Qed.
Lemma call_run c x r s short args o vs u : fun_of x = Some o -> assigned x = false -> intact (mem s) -> find x r = None -> find env_var r = None ->
  Forall valof vs -> const_call lang o vs = Ok (Some u) -> r_exs m c dots args r s = Gives (map val vs) s ->
  r_ex m c dots (XCall (XVar x) short args) r s = Gives [val u] s.
Proof.
  intros F As I Fx Fe Vs C Ha. destruct (fun_named _ _ F) as (nm & -> & In). pose proof (call_sound _ _ _ _ Vs C) as Mn.
  destruct (c_builtin _ _ _ _ _ OK nm o vs u (mem s) In (I _ _ In As) Vs Mn) as (fv & D1 & D2 & D3).
  change (bind (bind (read m c r (asc nm)) (fun v => ret [v])) (fun vs => bind (r_exs m c dots args r) (fun ws => apply m c (first m vs) ws)) s = Gives [val u] s).
  unfold read. rewrite Fx. change (asc "_ENV") with env_var. rewrite Fe. unfold bind, ret. rewrite (do1_done c _ _ fv s D1).
  rewrite Ha. unfold apply. cbn [first hd]. rewrite D2. exact (do_done c _ _ _ s D3).
Qed.
Lemma var_good w mu sc x r r' : vrel w sc r r' -> good w mu (ex1 (XVar x) r) (fold_var token chars longer sc x) r'.
Proof.
  intros R. unfold fold_var. pose proof (vrel_find _ _ _ _ x R) as F.
  assert (P : (forall v, look x sc <> Some (Some v)) -> good w mu (ex1 (XVar x) r) (XVar x, None) r').
  { intros N. apply good_plain. cbn [r_ex]. bnd (sim_read _ _ _ _ _ R N). apply sim_eq. }
  destruct (look x sc) as [[v|]|] eqn:L; [|apply P; discriminate|apply P; discriminate].
  destruct F as (Vv & Ch & _ & a & Fa & Ea). unfold set_const. rewrite Ch. cbn [andb].
  assert (Pv : pure w [val v] (ex1 (XVar x) r) (ex2 (XConst (token v)) r')).
  { intros w1 E s s' S. split; [|cbn [r_ex]; unfold ret; now rewrite token_val]. cbn [r_ex]. unfold read. rewrite Fa. unfold bind, get_box, ret. f_equal. f_equal.
    destruct S as (B & _). destruct Ea as [Ea|Ea]; pose proof (ext_nth _ _ _ _ E Ea) as E1.
    - eapply brel_gone; eassumption.
    - exact (proj2 (brel_keep _ _ _ _ _ (m_nil m) B E1) _ eq_refl). }
  split; cbn [fst snd].
  - eapply sim_weak; [|exact (pure_sim _ _ _ _ Pv)]. intros ? ? ? _ ->. apply rq_same.
  - intros u Q. injection Q as <-. now split.
Qed.
Lemma fun_rel w sc r r' ps b : vrel w sc r r' -> no_env (names ps) -> legal false b -> fine b ->
  ok sc (fun x => if has x (pnames ps) then false else sets_blk x b false) ->
  crel w (ps, b, r) (ps, fst (cbl (plain (pnames ps) sc) b (fun _ => false)), r').
Proof.
  intros R N L F O. exists sc. split; [exact R|]. split; [easy|]. rewrite names_pnames in N. split; [exact N|]. split; [easy|]. split; [exact L|]. split; [exact F|].
  now apply ok_under.
Qed.

(** ** Statements *)
Definition PI (i : its) : Prop := forall w sc r r' t j, legal_its i -> fine_its i -> ok sc (fun x => sets_its x i) -> vrel w sc r r' ->
  sim w same (its1 i r t j) (its2 (cit sc i) r' t j).
Definition run2 (o : becomes) (r : vars) : M sig :=
  match o with Stmt s => st2 s r | Block b => bind (blk2 b None r) (fun u => ret (leave r u)) | Gone => ret (Next r) end.
Definition consts_of (sc : scope) (xs : list (list Z * option (list Z))) (es : exs) (b : blk) (tail : list Z -> bool) : list (option lval) :=
  local_consts chars (map fst xs) (snd (cxs sc es)) (last_many (fst (cxs sc es))) (fun x => sets_blk x b (tail x)).
Definition sc_after (sc : scope) (s : st) (b : blk) (tail : list Z -> bool) : scope :=
  match s with
  | SLocal xs es => M_Const.locals (map fst xs) (consts_of sc xs es b tail) sc
  | SLocalFun x _ _ => plain [x] sc
  | _ => sc
  end.
Definition becoming (sc : scope) (s : st) (b : blk) (tail : list Z -> bool) : becomes :=
  match s with SLocal xs es => fold_local xs (fst (cxs sc es)) (consts_of sc xs es b tail) | s => cst sc s end.
Lemma cbl_cons sc s b tail : cbl sc (BCons s b) tail =
  (put (becoming sc s b tail) (fst (cbl (sc_after sc s b tail) b tail)), snd (cbl (sc_after sc s b tail) b tail)).
Proof. destruct s; reflexivity. Qed.
Definition ok_blk (sc : scope) (b : blk) (tail : list Z -> bool) : Prop := ok sc (fun x => sets_blk x b (tail x)).
Lemma ok_locals set ends : forall xs kn sc, (forall x v, look x sc = Some (Some v) -> has x xs = false -> set x = false) ->
  (forall x, look x sc = None -> has x xs = false -> set x = true -> assigned x = true) -> ok (M_Const.locals xs (local_consts chars xs kn ends set) sc) set.
Proof.
  induction xs as [|x xs IH]; intros kn sc A B.
  - split; intros; [eapply A; eauto|eapply B; eauto].
  - cbn [local_consts]. rewrite locals_cons. apply IH.
    + intros y v L N. cbn [look] in L. destruct (zeqb_list x y) eqn:E.
      * apply zeqb_list_true in E. subst y. rewrite N in L. cbn [negb andb] in L. destruct (set x); [discriminate L|reflexivity].
      * apply (A y v L). unfold has in *. cbn [existsb]. rewrite (zeqb_sym y x), E. exact N.
    + intros y L N. cbn [look] in L. destruct (zeqb_list x y) eqn:E; [discriminate L|]. apply (B y L). unfold has in *. cbn [existsb]. rewrite (zeqb_sym y x), E. exact N.
Qed.
Lemma ok_step sc s b tail : ok_blk sc (BCons s b) tail -> ok_blk (sc_after sc s b tail) b tail.
Proof.
  unfold ok_blk. intros O.
  assert (K : ok sc (fun x => sets_st x s || sets_blk x b (tail x)) -> ok sc (fun x => sets_blk x b (tail x))) by (intros H; now apply ok_or in H).
  destruct s; try exact (K O).
  - cbn [sc_after]. change (ok sc (fun x => sets_exs x es || (if has x (map fst xs) then false else sets_blk x b (tail x)))) in O.
    apply ok_or in O. destruct O as (_ & A & B). apply ok_locals.
    + intros x v L N. specialize (A x v L). cbn in A. now rewrite N in A.
    + intros x L N H. apply (B x L). now rewrite N.
  - cbn [sc_after]. change (ok sc (fun y => if zeqb_list y x then false else (if has y (pnames ps) then false else sets_blk y b0 false) || sets_blk y b (tail y))) in O.
    apply (ok_ext sc _ (fun y => if has y [x] then false else (if has y (pnames ps) then false else sets_blk y b0 false) || sets_blk y b (tail y))) in O.
    + apply ok_under, ok_or in O. exact (proj2 O).
    + intros y. unfold has. cbn [existsb]. now rewrite orb_false_r.
Qed.
Lemma ok_tail : forall b sc tail, ok_blk sc b tail -> ok (snd (cbl sc b tail)) tail.
Proof.
  induction b as [|s b IH]; intros sc tail O; [exact O|]. rewrite cbl_cons. cbn [snd]. apply IH. now apply ok_step.
Qed.
Definition sl (ls : list (list Z)) (l : list Z) : Prop := In l ls.
Definition PS (s : st) : Prop := forall b tail w sc r r', legal_st s -> fine_st s -> ok_blk sc (BCons s b) tail -> vrel w sc r r' ->
  sim w (grel (fun w => vrel w (sc_after sc s b tail)) (sl (gotos_st s))) (st1 s r) (run2 (becoming sc s b tail) r').
Definition bl (b : blk) (l : list Z) : Prop := In l (gotos b) /\ ~ In l (labels b).
Definition bs (over : bool) (l0 : list Z) (b : blk) (l : list Z) : Prop := (l = l0 \/ over = false /\ In l (gotos b)) /\ ~ In l (labels b).
Definition NR (until : bool) (sc : scope) (w : world) (r r' : vars) : Prop := until = true -> vrel w sc r r'.
Lemma mono_NR until sc : mono (NR until sc).
Proof. intros w w1 r r' E H U. eapply vrel_ext; [exact E|]. now apply H. Qed.
Definition PB (b : blk) : Prop := forall sc tail until w, legal until b -> fine b -> ok_blk sc b tail ->
  (forall r r', vrel w sc r r' -> sim w (grel (NR until (snd (cbl sc b tail))) (bl b)) (blk1 b None r) (blk2 (fst (cbl sc b tail)) None r')) /\
  (forall r r' l over, reach until l over b -> (over = false -> vrel w sc r r') ->
    sim w (grel (NR until (snd (cbl sc b tail))) (bs over l b)) (blk1 b (Some l) r) (blk2 (fst (cbl sc b tail)) (Some l) r')).
Definition as_st (i : branch) : becomes := match i with Keep i => Stmt (SIf i) | Take b => Block b | Drop => Gone end.
Definition PF (i : ifs) : Prop := forall w sc r r', legal_ifs i -> fine_ifs i -> ok sc (fun x => sets_ifs x i) -> vrel w sc r r' ->
  sim w (grel (fun w => vrel w sc) (sl (gotos_ifs i))) (ifs1 i r) (run2 (as_st (cif sc i)) r').
Definition PL (e : els) : Prop := forall w sc r r', legal_els e -> fine_els e -> ok sc (fun x => sets_els x e) -> vrel w sc r r' ->
  sim w (grel (fun w => vrel w sc) (sl (gotos_els e))) (els1 e r) (els2 (cel sc e) r').

Lemma in_outside b l ls : In l ls -> ~ In l (labels b) -> In l (outside b ls).
Proof.
  intros H N. unfold outside. apply filter_In. split; [exact H|]. destruct (existsb _ _) eqn:E; [|easy].
  apply existsb_exists in E. destruct E as (x & E & Q). apply zeqb_list_true in Q. now subst.
Qed.
Lemma grel_weak (N N2 : world -> vars -> vars -> Prop) (L L2 : list Z -> Prop) w u v :
  (forall r r', N w r r' -> N2 w r r') -> (forall l, L l -> L2 l) -> grel N L w u v -> grel N2 L2 w u v.
Proof. intros A B. destruct u, v; cbn; auto. intros (-> & H). auto. Qed.
Lemma out_of_block until sc sc2 b w u v r r' : vrel w sc r r' -> grel (NR until sc2) (bl b) w u v ->
  grel (fun w => vrel w sc) (sl (outside b (gotos b))) w (leave r u) (leave r' v).
Proof. intros R. destruct u, v; cbn; try contradiction; auto. intros (-> & I & N). split; [easy|]. now apply in_outside. Qed.
Lemma after_out until sc sc2 b w u v r r' : vrel w sc r r' -> grel (NR until sc2) (bl b) w u v ->
  optrel (grel (fun w => vrel w sc) (sl (outside b (gotos b)))) w (after r u) (after r' v).
Proof. intros R. destruct u, v; cbn; try contradiction; auto. intros (-> & I & N). split; [easy|]. now apply in_outside. Qed.
Lemma loop_out until sc2 b w u v : grel (NR until sc2) (bl b) w u v -> grel (NR until sc2) (sl (outside b (gotos b))) w u v.
Proof. destruct u, v; cbn; try contradiction; auto. intros (-> & I & N). split; [easy|]. now apply in_outside. Qed.
Lemma next_ret w sc ls r r' : vrel w sc r r' -> sim w (grel (fun w => vrel w sc) ls) (ret (Next r)) (ret (Next r')).
Proof. intros R. apply sim_out; [apply mono_grel, mono_vrel|exact R]. Qed.

Lemma blk1_cons s b skip r : (forall l, s <> SLabel l) -> blk1 (BCons s b) skip r =
  match skip with
  | Some _ => blk1 b skip r
  | None => bind (st1 s r) (fun u => match u with Next r' => blk1 b None r' | Goto l => blk1 b (Some l) r | u => ret u end)
  end.
Proof. intros N. destruct s; try reflexivity. now destruct (N x). Qed.
Lemma blk2_cons s b skip r : (forall l, s <> SLabel l) -> blk2 (BCons s b) skip r =
  match skip with
  | Some _ => blk2 b skip r
  | None => bind (st2 s r) (fun u => match u with Next r' => blk2 b None r' | Goto l => blk2 b (Some l) r | u => ret u end)
  end.
Proof. intros N. destruct s; try reflexivity. now destruct (N x). Qed.
Lemma not_label_dec s : (exists l, s = SLabel l) \/ (forall l, s <> SLabel l).
Proof. destruct s; try (right; discriminate). left. now exists x. Qed.
Lemma becoming_not sc s b tail s' : (forall l, s <> SLabel l) -> becoming sc s b tail = Stmt s' -> forall l, s' <> SLabel l.
Proof.
  intros N E l ->. destruct s; cbn [becoming] in E; try discriminate E; try (injection E as E; now destruct (N x)).
  - change (cst sc (SIf i)) with (as_st (cif sc i)) in E. now destruct (cif sc i).
  - unfold fold_local in E. destruct (kept _ _), (kept_exs _ _); discriminate E.
  - change (cst sc (SFun x path meth ps b0)) with (let b' := fst (cbl (plain (pnames (self_of meth ++ ps)) sc) b0 (fun _ => false)) in
      match look x sc, keys_of path meth with
      | Some (Some v), k :: keys => Stmt (SAssign (XCons (members (fst (set_const token chars longer (XVar x) v)) (k :: keys)) XNil) (XCons (XFun (self_of meth ++ ps) b') XNil))
      | _, _ => Stmt (SFun x path meth ps b') end) in E. cbn zeta in E. destruct (look x sc) as [[v|]|], (keys_of path meth); discriminate E.
Qed.
Lemma put_skip o R l r : (forall s, o = Stmt s -> forall l, s <> SLabel l) -> blk2 (put o R) (Some l) r = blk2 R (Some l) r.
Proof.
  intros N. destruct o as [s|b|]; cbn [put]; [|apply L_Branch.in_place_skip|reflexivity]. rewrite blk2_cons; [reflexivity|]. exact (N s eq_refl).
Qed.
Lemma put_run o R r s : (forall s, o = Stmt s -> forall l, s <> SLabel l) -> blk2 (put o R) None r s =
  bind (run2 o r) (fun u => match u with Next r' => blk2 R None r' | Goto l => blk2 R (Some l) r | u => ret u end) s.
Proof.
  intros N. destruct o as [t|b|]; cbn [put run2]; [|rewrite L_Branch.in_place_run, bind_bind; reflexivity|reflexivity].
  rewrite blk2_cons; [reflexivity|]. exact (N t eq_refl).
Qed.
Definition localish (s : st) : bool := match s with SLocal _ _ | SLocalFun _ _ _ => true | _ => false end.
Lemma reach_cons until l over s b : (forall l, s <> SLabel l) -> reach until l over (BCons s b) = reach until l (over || localish s) b.
Proof. intros N. destruct s; cbn [reach localish]; rewrite ?orb_false_r, ?orb_true_r; try reflexivity. now destruct (N x). Qed.
Lemma labels_cons s b : (forall l, s <> SLabel l) -> labels (BCons s b) = labels b.
Proof. intros N. destruct s; try reflexivity. now destruct (N x). Qed.
Lemma after_id sc s b tail : localish s = false -> sc_after sc s b tail = sc.
Proof. destruct s; cbn; try reflexivity; discriminate. Qed.
Lemma no_gotos s : localish s = true -> gotos_st s = []. Proof. destruct s; cbn; try reflexivity; discriminate. Qed.
Lemma void_sim : forall b w sc tail r r' L, void b = true ->
  sim w (grel (fun _ _ _ => True) L) (blk1 b None r) (blk2 (fst (cbl sc b tail)) None r').
Proof.
  assert (Mo : mono (fun (_ : world) (_ _ : vars) => True)) by (intros ? ? ? ? _ _; exact I).
  induction b as [|s b IH]; intros w sc tail r r' L E; [apply sim_ret; cbn; auto|].
  cbn [void] in E. apply andb_prop in E. destruct E as (Es & E). rewrite cbl_cons. cbn [fst].
  destruct s; try discriminate Es; cbn [becoming sc_after].
  - exact (IH w sc tail r r' L E).
  - change (sim w (grel (fun _ _ _ => True) L) (labelled n x (blk1 b None r)) (labelled n x (blk2 (fst (cbl sc b tail)) None r'))).
    apply sim_loop; [now apply mono_grel|].
    apply (sim_bind w (grel (fun _ _ _ => True) (fun _ => False))); [exact (IH w sc tail r r' (fun _ => False) E)|].
    intros w1 [] [] E1 H; try contradiction; apply sim_ret; intros; try exact H. destruct H as (_ & []).
Qed.
Lemma labelled_sim until sc b w l (L : list Z -> Prop) x y : (forall z, bl b z -> z <> l -> L z) ->
  sim w (grel (NR until sc) (bl b)) x y -> sim w (grel (NR until sc) L) (labelled n l x) (labelled n l y).
Proof.
  intros Sub H. apply sim_loop; [apply mono_grel, mono_NR|]. apply (sim_bind w (grel (NR until sc) (bl b))); [exact H|].
  intros w1 [] [] E Q; try contradiction; try (apply sim_out; [|exact Q]; intros ? ? ? ? ?; apply (mono_grel _ L (mono_NR until sc)); assumption).
  - apply sim_ret. intros w2 E2 U. eapply vrel_ext; [exact E2|]. now apply Q.
  - apply sim_ret. intros. exact I.
  - apply sim_ret. intros. exact Q.
  - apply sim_ret. intros. destruct Q as (<- & Q). destruct (zeqb_list l0 l) eqn:Z; [exact I|]. split; [reflexivity|]. apply Sub; [exact Q|].
    intros ->. now rewrite zeqb_list_refl in Z.
Qed.
Lemma blk_sim s b : PS s -> PB b -> PB (BCons s b).
Proof.
  intros Hs Hb sc tail until w (Lg & Ls & Lb) (Fs & Fb) O. pose proof (ok_step _ _ _ _ O) as O2.
  rewrite cbl_cons. cbn [fst snd]. set (sc2 := sc_after sc s b tail) in *. set (b2 := fst (cbl sc2 b tail)). set (sc3 := snd (cbl sc2 b tail)).
  assert (HB : forall w, (forall r r', vrel w sc2 r r' -> sim w (grel (NR until sc3) (bl b)) (blk1 b None r) (blk2 b2 None r')) /\
    (forall r r' l over, reach until l over b -> (over = false -> vrel w sc2 r r') -> sim w (grel (NR until sc3) (bs over l b)) (blk1 b (Some l) r) (blk2 b2 (Some l) r')))
    by (intros w0; exact (Hb sc2 tail until w0 Lb Fb O2)).
  destruct (not_label_dec s) as [(l0 & ->)|N].
  - cbn [sc_after] in sc2. subst sc2. change (becoming sc (SLabel l0) b tail) with (Stmt (SLabel l0)). cbn [put].
    assert (Lab : forall w r r' (L : list Z -> Prop), (forall z, bl b z -> z <> l0 -> L z) -> vrel w sc r r' ->
      sim w (grel (NR until sc3) L) (labelled n l0 (blk1 b None r)) (labelled n l0 (blk2 b2 None r'))).
    { intros w0 r r' L HL R. apply (labelled_sim _ _ b); [exact HL|now apply (proj1 (HB w0))]. }
    split.
    + intros r r' R. apply (Lab w r r'); [|exact R]. intros z (B & C) D. split; [exact B|].
      intros [E|E]; [now symmetry in E|contradiction].
    + intros r r' l over Rc Rv. cbn [reach] in Rc.
      change (sim w (grel (NR until sc3) (bs over l (BCons (SLabel l0) b)))
        (if zeqb_list l l0 then labelled n l0 (blk1 b None r) else bind (blk1 b (Some l) r) (fun u => match u with Goto x => if zeqb_list x l0 then labelled n l0 (blk1 b None r) else ret u | u => ret u end))
        (if zeqb_list l l0 then labelled n l0 (blk2 b2 None r') else bind (blk2 b2 (Some l) r') (fun u => match u with Goto x => if zeqb_list x l0 then labelled n l0 (blk2 b2 None r') else ret u | u => ret u end))).
      destruct (zeqb_list l l0) eqn:Z.
      * destruct Rc as [->|(-> & Vd)].
        -- apply Lab; [|now apply Rv]. intros z (B & C) D. split; [now right|].
           intros [E|E]; [now symmetry in E|contradiction].
        -- apply sim_loop; [apply mono_grel, mono_NR|].
           apply (sim_bind w (grel (fun _ _ _ => True) (fun _ => False))); [exact (void_sim b w sc tail r r' _ Vd)|].
           intros w1 [] [] E1 Q; try contradiction; apply sim_ret; intros; try exact Q; try (destruct Q as (_ & [])). cbn. discriminate.
      * apply (sim_bind w (grel (NR until sc3) (bs over l b))); [now apply (proj2 (HB w))|].
        intros w1 [r1| |vs|l1] [r1'| |vs'|l1'] E1 Q; try contradiction.
        -- apply sim_out; [apply mono_grel, mono_NR|exact Q].
        -- apply sim_ret. intros. exact I.
        -- apply sim_ret. intros. exact Q.
        -- destruct Q as (<- & B & C). destruct (zeqb_list l1 l0) eqn:Z1.
           ++ apply zeqb_list_true in Z1. subst l1. destruct B as [->|(-> & B)]; [now rewrite zeqb_list_refl in Z|].
              apply Lab; [|eapply vrel_ext; [exact E1|now apply Rv]]. intros z (B' & C') D. split; [now right|].
              intros [F|F]; [now symmetry in F|contradiction].
           ++ apply sim_ret. intros. split; [reflexivity|]. split; [exact B|]. intros [->|F]; [now rewrite zeqb_list_refl in Z1|contradiction].
  - pose proof (fun s' => becoming_not sc s b tail s' N) as N'.
    assert (EL : labels (BCons s b) = labels b) by now apply labels_cons.
    split.
    + intros r r' R. rewrite blk1_cons by assumption. eapply sim_right; [intros x; apply put_run, N'|].
      apply (sim_bind w (grel (fun w => vrel w sc2) (sl (gotos_st s)))); [now apply Hs|].
      intros w1 [r1| |vs|l] [r1'| |vs'|l'] E1 Q; try contradiction.
      * eapply sim_weak; [|apply (proj1 (HB w1)); exact Q].
        intros w2 u v _. apply grel_weak; [auto|]. intros x (B & C). unfold bl. rewrite EL. split; [|exact C].
        cbn [gotos]. apply in_or_app. now right.
      * apply sim_ret. intros. exact I.
      * apply sim_ret. intros. exact Q.
      * destruct Q as (<- & Il). rewrite Forall_forall in Lg. pose proof (Lg _ Il) as Rc.
        assert (Nl : localish s = false) by (unfold sl in Il; destruct (localish s) eqn:Q; [|easy]; now rewrite no_gotos in Il).
        assert (E2 : sc2 = sc) by now apply after_id.
        eapply sim_weak; [|apply (proj2 (HB w1) r r' l false); [exact Rc|intros _; rewrite E2; eapply vrel_ext; eassumption]].
        intros w2 u v _. apply grel_weak; [auto|]. intros x (B & C). unfold bl. rewrite EL. split; [|exact C].
        cbn [gotos]. apply in_or_app. destruct B as [->|(_ & B)]; [now left|now right].
    + intros r r' l over Rc Rv. rewrite blk1_cons by assumption. rewrite put_skip by exact N'. rewrite reach_cons in Rc by assumption.
      eapply sim_weak; [|apply (proj2 (HB w) r r' l (over || localish s)); [exact Rc|]].
      * intros w2 u v _. apply grel_weak; [auto|]. intros x (B & C). unfold bs. rewrite EL. split; [|exact C].
        destruct B as [->|(B1 & B2)]; [now left|]. right. apply orb_false_elim in B1. split; [easy|]. cbn [gotos]. apply in_or_app. now right.
      * intros Q. apply orb_false_elim in Q. destruct Q as (Q1 & Q2). unfold sc2. rewrite after_id by exact Q2. now apply Rv.
Qed.

Lemma ok_head sc s b tail : localish s = false -> ok_blk sc (BCons s b) tail -> ok sc (fun x => sets_st x s).
Proof.
  intros N O. assert (K : ok sc (fun x => sets_st x s || sets_blk x b (tail x)) -> ok sc (fun x => sets_st x s)) by (intros H; now apply ok_or in H).
  destruct s; try exact (K O); discriminate N.
Qed.
Lemma has_one y x : has y [x] = zeqb_list y x. Proof. unfold has. cbn [existsb]. apply orb_false_r. Qed.
(** the block of a statement *)
Lemma body_sim b w sc r r' : PB b -> legal false b -> fine b -> ok_blk sc b (fun _ => false) -> vrel w sc r r' ->
  sim w (grel (NR false (snd (cbl sc b (fun _ => false)))) (bl b)) (blk1 b None r) (blk2 (fst (cbl sc b (fun _ => false))) None r').
Proof. intros H L F O R. exact (proj1 (H sc _ false w L F O) r r' R). Qed.
Lemma do_sim b w sc r r' : PB b -> legal false b -> fine b -> ok_blk sc b (fun _ => false) -> vrel w sc r r' ->
  sim w (grel (fun w => vrel w sc) (sl (outside b (gotos b)))) (bind (blk1 b None r) (fun u => ret (leave r u)))
    (bind (blk2 (fst (cbl sc b (fun _ => false))) None r') (fun u => ret (leave r' u))).
Proof.
  intros H L F O R. eapply sim_bind; [apply body_sim; eassumption|]. intros w1 u v E Q. apply sim_out; [apply mono_grel, mono_vrel|].
  eapply out_of_block; [eapply vrel_ext; eassumption|exact Q].
Qed.
Lemma while_sim c b w sc r r' : PE c -> PB b -> legal_ex c -> legal false b -> fine_ex false c -> fine b -> ok sc (fun x => sets_ex x c) -> ok_blk sc b (fun _ => false) ->
  vrel w sc r r' -> sim w (grel (fun w => vrel w sc) (sl (outside b (gotos b)))) (st1 (SWhile c b) r) (st2 (SWhile (fst (cx sc c)) (fst (cbl sc b (fun _ => false)))) r').
Proof.
  intros Hc Hb Lc Lb Fc Fb Oc Ob R. apply (sim_loop _ (mono_grel _ (sl (outside b (gotos b))) (mono_vrel sc)) n).
  eapply sim_bind; [exact (proj1 (proj1 Hc w sc r r' false Lc Fc Oc R))|]. intros w1 vs vs' E Q. cbn [rq] in Q. unfold test. rewrite Q.
  pose proof (vrel_ext _ _ _ _ _ E R) as R1. apply sim_if.
  - eapply sim_bind; [apply body_sim; eassumption|]. intros w2 u v E2 Q2. apply sim_ret. intros w3 E3.
    eapply after_out; [eapply vrel_ext; [|exact R1]; eauto using ext_trans|]. exact (mono_grel _ _ (mono_NR _ _) _ _ _ _ E3 Q2).
  - apply sim_ret. intros w2 E2. cbn. eapply vrel_ext; eassumption.
Qed.

(** Local statements *)
Lemma wanted_some c v : wanted chars c = Some v -> c = Some v /\ chars = false.
Proof. destruct c as [[]|]; cbn; try discriminate; destruct chars; try discriminate; intros E; split; congruence. Qed.
Lemma flok_consts ends set : forall xs kn, flok ends (map (fun c : option lval => match c with Some _ => true | None => false end) (local_consts chars xs kn ends set)) (local_consts chars xs kn ends set) kn.
Proof.
  induction xs as [|x xs IH]; intros kn; [exact I|]. cbn [local_consts map flok].
  set (c := if negb (has x xs) && set x then None else wanted chars (match kn with c :: _ => c | [] => if ends then None else Some VNil end)).
  split; [destruct c; discriminate|]. split; [|apply IH]. intros v E. subst c. destruct (negb (has x xs) && set x); [discriminate|].
  apply wanted_some in E. destruct E as (E & Ch). split; [exact Ch|]. destruct kn as [|k kn]; [|exact E]. destruct ends; [discriminate|]. split; [easy|congruence].
Qed.
Lemma flok_last ends : forall fl cs kn, flok ends fl cs kn -> cs <> [] -> flok ends (removelast fl ++ [false]) cs kn.
Proof.
  induction fl as [|f fl IH]; intros [|c cs] kn H N; try (exfalso; exact H); [now destruct N|]. destruct H as (A & B & C).
  destruct fl as [|f2 fl].
  - destruct cs; [|exfalso; exact C]. cbn. split; [discriminate|]. split; [exact B|exact I].
  - assert (X : removelast (f :: f2 :: fl) = f :: removelast (f2 :: fl)) by reflexivity. rewrite X. cbn [app flok].
    split; [exact A|]. split; [exact B|]. apply IH; [exact C|]. intros ->. exact C.
Qed.
Lemma flok_len ends : forall fl cs kn, flok ends fl cs kn -> length fl = length cs.
Proof. induction fl as [|f fl IH]; intros [|c cs] kn H; try (exfalso; exact H); [easy|]. destruct H as (_ & _ & H). cbn [length]. f_equal. eapply IH; exact H. Qed.
Lemma len_consts ends set : forall xs kn, length (local_consts chars xs kn ends set) = length xs.
Proof. induction xs; intros; cbn; auto. Qed.
Lemma erased_ok short ends set xs kn : xs <> [] -> flok ends (erased short (local_consts chars xs kn ends set)) (local_consts chars xs kn ends set) kn.
Proof.
  intros N. unfold erased. pose proof (flok_consts ends set xs kn) as H. destruct (short && all_some _); [|exact H]. apply flok_last; [exact H|].
  intros E. apply (f_equal (@length _)) in E. rewrite len_consts in E. destruct xs; [now apply N|discriminate E].
Qed.
Lemma map_kept {A B} (f : A -> B) : forall fl l, map f (kept fl l) = kept fl (map f l).
Proof. induction fl as [|b fl IH]; intros [|a l]; try reflexivity. cbn [kept map]. destruct b; cbn [map]; now rewrite IH. Qed.
Lemma local_run xs es cs r s : let fl := erased (Nat.ltb (length xs) (len_exs es)) cs in
  run2 (fold_local xs es cs) r s = bind (exs2 (kept_exs fl es) r) (fun vs => bind (declare m (kept fl (map fst xs)) vs r) (fun r => ret (Next r))) s.
Proof.
  cbn zeta. unfold fold_local. rewrite <- map_kept. destruct (kept _ xs) eqn:K, (kept_exs _ es); reflexivity.
Qed.
Lemma local_sim xs es : PEs es -> PS (SLocal xs es).
Proof.
  intros P b tail w sc r r' L (F & N & Np & G) O R. cbn [becoming sc_after gotos_st]. eapply sim_right; [intros s; apply local_run|]. cbn zeta.
  assert (Oe : ok sc (fun x => sets_exs x es)) by (change (ok sc (fun x => sets_exs x es || (if has x (map fst xs) then false else sets_blk x b (tail x)))) in O; now apply ok_or in O).
  change (sim w (grel (fun w => vrel w (M_Const.locals (map fst xs) (consts_of sc xs es b tail) sc)) (sl [])) (bind (exs1 es r) (fun vs => bind (declare m (map fst xs) vs r) (fun r => ret (Next r))))
    (bind (exs2 (kept_exs (erased (Nat.ltb (length xs) (len_exs (fst (cxs sc es)))) (consts_of sc xs es b tail)) (fst (cxs sc es))) r') (fun vs => bind (declare m (kept (erased (Nat.ltb (length xs) (len_exs (fst (cxs sc es)))) (consts_of sc xs es b tail)) (map fst xs)) vs r') (fun r => ret (Next r))))).
  destruct xs as [|x xs].
  - assert (X : forall f, kept_exs (erased f (consts_of sc [] es b tail)) (fst (cxs sc es)) = fst (cxs sc es)) by (intros []; cbn; destruct (fst (cxs sc es)); reflexivity).
    rewrite X. assert (Y : forall f, kept (erased f (consts_of sc [] es b tail)) (@nil (list Z)) = []) by (intros []; reflexivity). cbn [map]. rewrite Y.
    bnd (proj1 (exs_sim sc es w r r' P L F Oe R)). apply next_ret. exact (vrel_ext _ _ _ _ _ E R).
  - set (cs := consts_of sc (x :: xs) es b tail). set (fl := erased (Nat.ltb (length (x :: xs)) (len_exs (fst (cxs sc es)))) cs).
    assert (K : flok (last_many (fst (cxs sc es))) fl cs (snd (cxs sc es))) by (apply erased_ok; discriminate).
    assert (Ln : length fl = length (map fst (x :: xs))) by (rewrite (flok_len _ _ _ _ K); apply len_consts).
    eapply sim_bind; [apply (local_vals sc es w r r' fl cs P L F Oe R K)|].
    + rewrite Ln, map_length. exact G.
    + intros w1 vs vs' E D. eapply sim_bind; [apply (sim_locals (map fst (x :: xs)) fl cs vs vs' w1 sc r r' Ln N Np D (vrel_ext _ _ _ _ _ E R))|].
      intros w2 q q' E2 Q. now apply next_ret.
Qed.
Lemma members_run c r : forall keys k e s, r_place m c dots (members (XMem e k) keys) r s = bind (r_ex m c dots e r) (fun vs => walk m c (first m vs) k keys) s.
Proof.
  induction keys as [|k2 keys IH]; intros k e s; [reflexivity|]. cbn [members]. change (members (XMem (XMem e k) k2) keys) with (members (XMem (XMem e k) k2) keys).
  rewrite IH. cbn [r_ex]. rewrite bind_bind. apply bind_same. intros vs t. rewrite bind_bind. reflexivity.
Qed.
Lemma fun_sim x path meth ps b : PB b -> PS (SFun x path meth ps b).
Proof.
  intros _ b0 tail w sc r r' L (N & F) O R. apply ok_head in O; [|reflexivity].
  change (ok sc (fun y => (match keys_of path meth with [] => zeqb_list y x | _ => false end) || (if has y (pnames (self_of meth ++ ps)) then false else sets_blk y b false))) in O.
  apply ok_or in O. destruct O as (O1 & O2). cbn [becoming sc_after gotos_st]. set (b' := fst (cbl (plain (pnames (self_of meth ++ ps)) sc) b (fun _ => false))).
  assert (C : forall w1, ext w w1 -> crel w1 (self_of meth ++ ps, b, r) (self_of meth ++ ps, b', r')).
  { intros w1 E. apply fun_rel; auto; [eapply vrel_ext; eassumption|]. destruct meth; [|exact N]. intros [H|H]; [discriminate H|now apply N]. }
  change (st1 (SFun x path meth ps b) r) with (bind (path_of m c1 r x (keys_of path meth)) (fun p => bind (new_fun m (self_of meth ++ ps, b, r)) (fun v => bind (store m c1 p v) (fun _ => ret (@Next V r))))).
  change (cst sc (SFun x path meth ps b)) with (match look x sc, keys_of path meth with
      | Some (Some v), k :: keys => Stmt (SAssign (XCons (members (fst (set_const token chars longer (XVar x) v)) (k :: keys)) XNil) (XCons (XFun (self_of meth ++ ps) b') XNil))
      | _, _ => Stmt (SFun x path meth ps b') end).
  assert (Tail : forall w1 p p', ext w w1 -> prel w1 p p' -> sim w1 (grel (fun w => vrel w sc) (sl [])) (bind (new_fun m (self_of meth ++ ps, b, r)) (fun v => bind (store m c1 p v) (fun _ => ret (@Next V r))))
    (bind (new_fun m (self_of meth ++ ps, b', r')) (fun v => bind (store m c2 p' v) (fun _ => ret (@Next V r'))))).
  { intros w1 p p' E Q. bnd (sim_fun w1 _ _ (C w1 E)). bnd (sim_store _ _ _ a (prel_ext _ _ _ _ E0 Q)). apply next_ret. eapply vrel_ext; [|exact R]. eauto using ext_trans. }
  assert (Same : (forall v, look x sc <> Some (Some v)) \/ keys_of path meth = [] -> sim w (grel (fun w => vrel w sc) (sl []))
    (bind (path_of m c1 r x (keys_of path meth)) (fun p => bind (new_fun m (self_of meth ++ ps, b, r)) (fun v => bind (store m c1 p v) (fun _ => ret (@Next V r)))))
    (run2 (Stmt (SFun x path meth ps b')) r')).
  { intros H. change (run2 (Stmt (SFun x path meth ps b')) r') with (bind (path_of m c2 r' x (keys_of path meth)) (fun p => bind (new_fun m (self_of meth ++ ps, b', r')) (fun v => bind (store m c2 p v) (fun _ => ret (@Next V r'))))).
    eapply sim_bind; [|intros w1 p p' E Q; exact (Tail w1 p p' E Q)]. unfold path_of. destruct (keys_of path meth) as [|k keys]; [now apply (sim_place_of w sc)|].
    destruct H as [H|H]; [|discriminate H]. bnd (sim_read w sc r r' x R H). apply sim_walk. }
  destruct (look x sc) as [[v|]|] eqn:Lk; [|apply Same; left; discriminate|apply Same; left; discriminate].
  destruct (keys_of path meth) as [|k keys] eqn:Kp; [apply Same; now right|].
  pose proof (var_good w false sc x r r' R) as (_ & G). unfold fold_var in G. rewrite Lk in G.
  assert (Sn : snd (set_const token chars longer (XVar x) v) = Some v) by (unfold set_const; destruct (chars && longer v (XVar x)); reflexivity).
  destruct (G v Sn) as (Vv & Pv). set (e' := fst (set_const token chars longer (XVar x) v)) in *.
  eapply (sim_right w _ _ _ (bind (bind (ex2 e' r') (fun vs => walk m c2 (first m vs) k keys)) (fun p => bind (new_fun m (self_of meth ++ ps, b', r')) (fun v => bind (store m c2 p v) (fun _ => ret (@Next V r')))))).
  { intros s. unfold run2.
    change (st2 (SAssign (XCons (members e' (k :: keys)) XNil) (XCons (XFun (self_of meth ++ ps) b') XNil)) r') with
      (bind (bind (r_place m c2 dots (members (XMem e' k) keys) r') (fun p => bind (ret []) (fun ps => ret (p :: ps)))) (fun ps0 => bind (bind (new_fun m (self_of meth ++ ps, b', r')) (fun v => ret [v])) (fun vs => bind (stores m c2 ps0 vs) (fun _ => ret (@Next V r'))))).
    rewrite bind_bind. transitivity (bind (r_place m c2 dots (members (XMem e' k) keys) r') (fun p => bind (new_fun m (self_of meth ++ ps, b', r')) (fun v => bind (store m c2 p v) (fun _ => ret (@Next V r')))) s).
    - apply bind_same. intros p t. change (bind (bind (new_fun m (self_of meth ++ ps, b', r')) (fun v => ret [v])) (fun vs => bind (stores m c2 [p] vs) (fun _ => ret (@Next V r'))) t = bind (new_fun m (self_of meth ++ ps, b', r')) (fun v => bind (store m c2 p v) (fun _ => ret (@Next V r'))) t).
      rewrite bind_bind. reflexivity.
    - unfold bind at 1. rewrite members_run. reflexivity. }
  eapply sim_bind; [|intros w1 p p' E Q; exact (Tail w1 p p' E Q)]. cbn [path_of].
  apply (sim_left w _ _ (bind (ex1 (XVar x) r) (fun vs => walk m c1 (first m vs) k keys))).
  { intros s. cbn [r_ex]. rewrite bind_bind. reflexivity. }
  apply (pure_bind _ _ _ _ _ _ _ Pv). apply sim_walk.
Qed.
Lemma its_nil i : i = INil \/ i <> INil.
Proof. destruct i; [now left|right; discriminate..]. Qed.
Lemma if_sim' c b e w sc r r' i' : PE c -> PB b -> PL e -> legal_ex c -> legal false b -> legal_els e -> fine_ex false c -> fine b -> fine_els e ->
  ok sc (fun x => sets_ex x c || sets_blk x b false || sets_els x e) -> vrel w sc r r' ->
  (forall r, ifs2 i' r = bind (ex2 (fst (cx sc c)) r) (fun vs => if test m vs then bind (blk2 (fst (cbl sc b (fun _ => false))) None r) (fun u => ret (leave r u)) else els2 (cel sc e) r)) ->
  sim w (grel (fun w => vrel w sc) (sl (outside b (gotos b) ++ gotos_els e)))
    (bind (ex1 c r) (fun vs => if test m vs then bind (blk1 b None r) (fun u => ret (leave r u)) else els1 e r))
    (run2 (as_st (resolve i' (snd (cx sc c)) (fst (cbl sc b (fun _ => false))) (cel sc e))) r').
Proof.
  intros Hc Hb He Lc Lb Le Fc Fb Fe O R I. apply ok_or in O. destruct O as (O & Oe). apply ok_or in O. destruct O as (Oc & Ob).
  assert (T : sim w (grel (fun w => vrel w sc) (sl (outside b (gotos b) ++ gotos_els e))) (bind (blk1 b None r) (fun u => ret (leave r u)))
    (bind (blk2 (fst (cbl sc b (fun _ => false))) None r') (fun u => ret (leave r' u)))).
  { eapply sim_weak; [|apply (do_sim b w sc r r'); assumption]. intros w1 u v _. apply grel_weak; [auto|]. intros l H. apply in_or_app. now left. }
  assert (E : sim w (grel (fun w => vrel w sc) (sl (outside b (gotos b) ++ gotos_els e))) (els1 e r) (els2 (cel sc e) r')).
  { eapply sim_weak; [|exact (He w sc r r' Le Fe Oe R)]. intros w1 u v _. apply grel_weak; [auto|]. intros l H. apply in_or_app. now right. }
  destruct (proj1 Hc w sc r r' false Lc Fc Oc R) as (A & B). unfold resolve, branch_of. destruct (snd (cx sc c)) as [v|] eqn:K; cbn [option_map].
  - destruct (B v eq_refl) as (Vv & Pv). apply (pure_left _ _ _ _ _ _ _ Pv). unfold test. cbn [first hd]. rewrite val_true. destruct (is_truthy v).
    + exact T.
    + destruct (cel sc e); exact E.
  - cbn [as_st run2]. change (st2 (SIf i') r') with (ifs2 i' r'). rewrite I. eapply sim_bind; [exact A|]. intros w1 vs vs' E1 Q. cbn [rq] in Q. unfold test. rewrite Q.
    apply sim_if; eapply sim_ext; eassumption.
Qed.
Ltac bfst H := eapply sim_bind; [exact (proj1 H)|]; let w' := fresh "w" in let vs := fresh "vs" in let us := fresh "us" in let E := fresh "E" in let Q := fresh "Q" in intros w' vs us E Q; cbn [rq] in Q; rewrite Q; clear Q vs.
Ltac up := let E := fresh in assert (E : True) by exact I; clear E; eauto using ext_trans, ext_refl.
Lemma PE_only e : (is_target e -> False) -> (forall w sc r r' mu, legal_ex e -> fine_ex mu e -> ok sc (fun x => sets_ex x e) -> vrel w sc r r' -> good w mu (ex1 e r) (cx sc e) r') -> PE e.
Proof. intros N H. split; [exact H|]. intros w sc r r' T. now destruct (N T). Qed.
Ltac vx := eapply vrel_ext; [|eassumption]; eauto using ext_trans, ext_refl.
Lemma call_good w mu sc f short args r r' : PE f -> PEs args -> legal_ex f -> legal_exs args -> fine_ex false f -> fine_exs args ->
  ok sc (fun x => sets_ex x f) -> ok sc (fun x => sets_exs x args) -> vrel w sc r r' ->
  good w mu (ex1 (XCall f short args) r) (fold_call lang token chars longer calls assigned sc f short (fst (cxs sc args)) (snd (cxs sc args)) (fst (cx sc f))) r'.
Proof.
  intros Hf Ha Lf La Ff Fa Of Oa R.
  assert (X : sim w same (ex1 (XCall f short args) r) (ex2 (XCall (fst (cx sc f)) short (fst (cxs sc args))) r')).
  { change (sim w same (bind (ex1 f r) (fun vs => bind (exs1 args r) (fun ws => apply m c1 (first m vs) ws)))
      (bind (ex2 (fst (cx sc f)) r') (fun vs => bind (exs2 (fst (cxs sc args)) r') (fun ws => apply m c2 (first m vs) ws)))).
    bfst (proj1 Hf w sc r r' false Lf Ff Of R). bnd (proj1 (exs_sim sc args w0 r r' Ha La Fa Oa (vrel_ext _ _ _ _ _ E R))). apply sim_apply. }
  unfold fold_call. destruct f as [|  |x| | | | | | | | | ]; try (apply good_plain; exact X).
  destruct (look x sc) eqn:Lx; [now apply good_plain|]. destruct (look (asc "_ENV") sc); [now apply good_plain|].
  destruct (fun_of x) as [o|] eqn:Fo; [|now apply good_plain]. destruct (all_known (snd (cxs sc args))) as [vs|] eqn:Kn; [|now apply good_plain].
  destruct (negb (assigned x) && calls) eqn:As; [|now apply good_plain]. apply andb_true_iff in As. destruct As as (As & _). apply negb_true_iff in As.
  destruct (const_call lang o vs) as [[u|]|] eqn:C; cbn [fold_to]; [|now apply good_plain|now apply good_plain].
  destruct (proj2 (exs_sim sc args w r r' Ha La Fa Oa R) vs Kn) as (Vs & Ps).
  pose proof (call_sound _ _ _ _ Vs C) as Mn. apply good_const; [eapply call_value; [exact Vs|exact Mn]|].
  pose proof (vrel_find _ _ _ _ x R) as Fx. rewrite Lx in Fx. destruct (vrel_env _ _ _ _ R) as (Fe & Fe' & _).
  assert (Xf : fst (cx sc (XVar x)) = XVar x) by (change (cx sc (XVar x)) with (fold_var token chars longer sc x); unfold fold_var; now rewrite Lx). rewrite Xf.
  intros w1 E s s' S. destruct (Ps w1 E s s' S) as (Q1 & Q2). destruct S as (_ & Em & It & _). split.
  - exact (call_run c1 x r s short args o vs u Fo As It (proj1 Fx) Fe Vs C Q1).
  - apply (call_run c2 x r' s' short _ o vs u Fo As); try assumption; [now rewrite Em|exact (proj2 Fx)].
Qed.

Theorem const_all : (forall e, PE e) /\ (forall es, PEs es) /\ (forall i, PI i) /\ (forall s, PS s) /\ (forall b, PB b) /\ (forall i, PF i) /\ (forall e, PL e).
Proof.
  apply prog_all.
  - (* XConst *) intros t. apply PE_only; [easy|]. intros w sc r r' mu _ _ _ _. change (cx sc (XConst t)) with (XConst t, value t).
    split; [eapply sim_weak; [|apply sim_eq]; intros ? ? ? _ ->; apply rq_same|]. cbn [fst snd]. intros v Q. destruct (c_const _ _ _ _ _ OK _ _ Q) as (Vv & Qv).
    split; [exact Vv|]. intros w1 E s s' S. cbn [r_ex]. unfold ret. now rewrite Qv.
  - apply PE_only; [easy|]. intros w sc r r' mu _ _ _ _. apply good_plain. apply sim_eq.
  - intros x. split.
    + intros w sc r r' mu _ _ _ R. exact (var_good w mu sc x r r' R).
    + intros w sc r r' _ _ _ O R. apply ok_or in O. exact (sim_place_of w sc r r' x R (proj1 O)).
  - intros ps b Hb. apply PE_only; [easy|]. intros w sc r r' mu L (N & F) O R. apply good_plain.
    change (sim w same (bind (new_fun m (ps, b, r)) (fun v => ret [v])) (bind (new_fun m (ps, fst (cbl (plain (pnames ps) sc) b (fun _ => false)), r')) (fun v => ret [v]))).
    bnd (sim_fun w _ _ (fun_rel w sc r r' ps b R N L F O)). apply sim_eq.
  - intros e He. apply PE_only; [easy|]. intros w sc r r' mu L F O R. destruct (proj1 He w sc r r' false L F O R) as (A & B).
    change (cx sc (XGroup e)) with (XGroup (fst (cx sc e)), snd (cx sc e)). split; cbn [fst snd].
    + eapply (sim_weak w same); [intros ? ? ? _ ->; apply rq_same|]. cbn [r_ex]. eapply sim_bind; [exact A|]. intros w1 vs vs' E Q. cbn [rq] in Q. rewrite Q. apply sim_eq.
    + intros v Q. destruct (B v Q) as (Vv & Pv). split; [exact Vv|]. intros w1 E s s' S. destruct (Pv w1 E s s' S) as (Q1 & Q2). cbn [r_ex]. unfold bind. rewrite Q1, Q2. now split.
  - intros op e He. apply PE_only; [easy|]. intros w sc r r' mu L F O R. apply un_good. intros ? ->. exact (proj1 He w sc r r' false L F O R).
  - intros op a Ha b Hb. apply PE_only; [easy|]. intros w sc r r' mu (L1 & L2) (F1 & F2) O R. apply ok_or in O. destruct O as (O1 & O2).
    apply bin_good; [exact (proj1 Ha w sc r r' false L1 F1 O1 R)| |].
    + apply (proj1 Hb w sc r r'); auto. destruct (and_or op); [exact (proj2 F2)|exact F2].
    + intros AO ->. rewrite AO in F2. destruct F2 as (F2 & F3). apply many_fold; auto.
  - intros e He key. split.
    + intros w sc r r' mu L F O R. apply good_plain.
      change (sim w same (bind (ex1 e r) (fun vs => bind (do1 m c1 AIndex [first m vs; m_str m key]) (fun v => ret [v]))) (bind (ex2 (fst (cx sc e)) r') (fun vs => bind (do1 m c2 AIndex [first m vs; m_str m key]) (fun v => ret [v])))).
      bfst (proj1 He w sc r r' false L F O R). bnd (sim_do1 w0 AIndex [first m us; m_str m key] ltac:(sf)). apply sim_eq.
    + intros w sc r r' _ L F O R. apply ok_or in O. destruct O as (_ & O).
      change (sim w prel (bind (ex1 e r) (fun vs => ret (PIndex (first m vs) (m_str m key)))) (bind (ex2 (fst (cx sc e)) r') (fun vs => ret (PIndex (first m vs) (m_str m key))))).
      bfst (proj1 He w sc r r' false L F O R). apply sim_ret. now split.
  - intros e He i Hi. split.
    + intros w sc r r' mu (L1 & L2) (F1 & F2) O R. apply ok_or in O. destruct O as (O1 & O2). apply good_plain.
      change (sim w same (bind (ex1 e r) (fun vs => bind (ex1 i r) (fun ws => bind (do1 m c1 AIndex [first m vs; first m ws]) (fun v => ret [v])))) (bind (ex2 (fst (cx sc e)) r') (fun vs => bind (ex2 (fst (cx sc i)) r') (fun ws => bind (do1 m c2 AIndex [first m vs; first m ws]) (fun v => ret [v]))))).
      bfst (proj1 He w sc r r' false L1 F1 O1 R). bfst (proj1 Hi w0 sc r r' false L2 F2 O2 (vrel_ext _ _ _ _ _ E R)). bnd (sim_do1 w1 AIndex [first m us; first m us0] ltac:(sf)). apply sim_eq.
    + intros w sc r r' _ (L1 & L2) (F1 & F2) O R. apply ok_or in O. destruct O as (_ & O). apply ok_or in O. destruct O as (O1 & O2).
      change (sim w prel (bind (ex1 e r) (fun vs => bind (ex1 i r) (fun ws => ret (PIndex (first m vs) (first m ws))))) (bind (ex2 (fst (cx sc e)) r') (fun vs => bind (ex2 (fst (cx sc i)) r') (fun ws => ret (PIndex (first m vs) (first m ws)))))).
      bfst (proj1 He w sc r r' false L1 F1 O1 R). bfst (proj1 Hi w0 sc r r' false L2 F2 O2 (vrel_ext _ _ _ _ _ E R)). apply sim_ret. now split.
  - intros f Hf short args Ha. apply PE_only; [easy|]. intros w sc r r' mu (L1 & L2) (F1 & F2) O R. apply ok_or in O. destruct O as (O1 & O2).
    exact (call_good w mu sc f short args r r' Hf Ha L1 L2 F1 F2 O1 O2 R).
  - intros e He key short args Ha. apply PE_only; [easy|]. intros w sc r r' mu (L1 & L2) (F1 & F2) O R. apply ok_or in O. destruct O as (O1 & O2). apply good_plain.
    change (sim w same (bind (ex1 e r) (fun vs => bind (do1 m c1 AIndex [first m vs; m_str m key]) (fun f => bind (exs1 args r) (fun ws => apply m c1 f (first m vs :: ws)))))
      (bind (ex2 (fst (cx sc e)) r') (fun vs => bind (do1 m c2 AIndex [first m vs; m_str m key]) (fun f => bind (exs2 (fst (cxs sc args)) r') (fun ws => apply m c2 f (first m vs :: ws)))))).
    bfst (proj1 He w sc r r' false L1 F1 O1 R). bnd (sim_do1 w0 AIndex [first m us; m_str m key] ltac:(sf)).
    bnd (proj1 (exs_sim sc args w1 r r' Ha L2 F2 O2 (vrel_ext _ _ _ _ _ (ext_trans _ _ _ E E0) R))). apply sim_apply.
  - intros i Hi. apply PE_only; [easy|]. intros w sc r r' mu L F O R. apply good_plain.
    change (sim w same (bind (do1 m c1 ATable []) (fun t => bind (its1 i r t 1%nat) (fun _ => ret [t]))) (bind (do1 m c2 ATable []) (fun t => bind (its2 (cit sc i) r' t 1%nat) (fun _ => ret [t])))).
    bnd (sim_do1 w ATable [] ltac:(sf)). bnd (Hi w0 sc r r' a 1%nat L F O (vrel_ext _ _ _ _ _ E R)). apply sim_eq.
  - (* XNil *) exact I.
  - intros e He es Hes. now split.
  - intros w sc r r' t j L F O R. apply sim_eq.
  - intros key Hk v Hv sep i Hi w sc r r' t j (L1 & L2 & L3) (F1 & F2 & F3) O R. apply ok_or in O. destruct O as (O & O3). apply ok_or in O. destruct O as (O1 & O2).
    change (sim w same (bind (ex1 key r) (fun ks => bind (ex1 v r) (fun vs => bind (do_ m c1 ASetIndex [t; first m ks; first m vs]) (fun _ => its1 i r t j))))
      (bind (ex2 (fst (cx sc key)) r') (fun ks => bind (ex2 (fst (cx sc v)) r') (fun vs => bind (do_ m c2 ASetIndex [t; first m ks; first m vs]) (fun _ => its2 (cit sc i) r' t j))))).
    bfst (proj1 Hk w sc r r' false L1 F1 O1 R). bfst (proj1 Hv w0 sc r r' false L2 F2 O2 (vrel_ext _ _ _ _ _ E R)). bnd (sim_do w1 ASetIndex [t; first m us; first m us0] ltac:(sf)).
    apply (Hi _ sc); auto. vx.
  - intros key v Hv sep i Hi w sc r r' t j (L2 & L3) (F2 & F3) O R. apply ok_or in O. destruct O as (O2 & O3).
    change (sim w same (bind (ex1 v r) (fun vs => bind (do_ m c1 ASetIndex [t; m_str m key; first m vs]) (fun _ => its1 i r t j)))
      (bind (ex2 (fst (cx sc v)) r') (fun vs => bind (do_ m c2 ASetIndex [t; m_str m key; first m vs]) (fun _ => its2 (cit sc i) r' t j)))).
    bfst (proj1 Hv w sc r r' false L2 F2 O2 R). bnd (sim_do w0 ASetIndex [t; m_str m key; first m us] ltac:(sf)).
    apply (Hi _ sc); auto. vx.
  - intros e He sep i Hi w sc r r' t j (L1 & L3) F O R. apply ok_or in O. destruct O as (O1 & O3). destruct (its_nil i) as [->|Ni].
    + change (sim w same (bind (ex1 e r) (fun vs => items m c1 t j vs)) (bind (ex2 (fst (cx sc e)) r') (fun vs => items m c2 t j vs))).
      bnd (proj1 (proj1 He w sc r r' true L1 F O1 R)). apply sim_items.
    + assert (F' : fine_ex false e /\ fine_its i) by (destruct i; [now destruct Ni| | |]; exact F). destruct F' as (F1 & F3). clear F.
      assert (X : sim w same (bind (ex1 e r) (fun vs => bind (do_ m c1 (AItem j) [t; first m vs]) (fun _ => its1 i r t (S j)))) (bind (ex2 (fst (cx sc e)) r') (fun vs => bind (do_ m c2 (AItem j) [t; first m vs]) (fun _ => its2 (cit sc i) r' t (S j))))).
      { bfst (proj1 He w sc r r' false L1 F1 O1 R). bnd (sim_do w0 (AItem j) [t; first m us] ltac:(sf)). apply (Hi _ sc); auto. vx. }
      destruct i; [now destruct Ni| | |]; exact X.
  - (* SSemi *) intros b tail w sc r r' L F O R. now apply next_ret.
  - intros b Hb b0 tail w sc r r' L F O R. apply ok_head in O; [|reflexivity]. exact (do_sim b w sc r r' Hb L F O R).
  - intros i Hi b tail w sc r r' L F O R. apply ok_head in O; [|reflexivity]. exact (Hi w sc r r' L F O R).
  - intros c Hc b Hb b0 tail w sc r r' (L1 & L2) (F1 & F2) O R. apply ok_head, ok_or in O; [|reflexivity]. destruct O as (O1 & O2).
    exact (while_sim c b w sc r r' Hc Hb L1 L2 F1 F2 O1 O2 R).
  - intros ne c Hc b Hb b0 tail w sc r r' (L1 & L2) (F1 & F2) O R. apply ok_head, ok_or in O; [|reflexivity]. destruct O as (O1 & O2).
    exact (while_sim c b w sc r r' Hc Hb L1 L2 F1 F2 O1 O2 R).
  - intros b Hb c Hc b0 tail w sc r r' (L1 & L2) (F1 & F2) O R. apply ok_head in O; [|reflexivity].
    change (ok_blk sc b (fun x => sets_ex x c)) in O. pose proof (ok_tail _ _ _ O) as Oc.
    apply (sim_loop _ (mono_grel _ (sl (outside b (gotos b))) (mono_vrel sc)) n).
    eapply sim_bind; [exact (proj1 (Hb sc (fun x => sets_ex x c) true w L1 F1 O) r r' R)|]. intros w1 u v E Q.
    pose proof (after_out _ sc _ _ _ _ _ r r' (vrel_ext _ _ _ _ _ E R) Q) as Q'.
    destruct u as [r1| |vs|l], v as [r1'| |vs'|l']; try contradiction; try (apply sim_ret; intros w2 E2; exact Q').
    + cbn [grel] in Q. eapply sim_bind; [exact (proj1 (proj1 Hc w1 _ r1 r1' false L2 F2 Oc (Q eq_refl)))|]. intros w0 vs us E0 Q0. cbn [rq] in Q0. unfold test. rewrite Q0. apply sim_ret. intros w2 E2. destruct (m_true m (first m us)); [|exact I]. cbn. vx.
    + apply sim_ret. intros w2 E2. cbn. vx.
  - intros x a Ha z Hz step Hst b Hb b0 tail w sc r r' (L1 & L2 & L3 & L4) (F1 & F2 & F3 & N & F4) O R. apply ok_head in O; [|reflexivity].
    change (ok sc (fun y => (sets_ex y a || sets_ex y z || sets_exs y step) || (if zeqb_list y x then false else sets_blk y b false))) in O.
    apply ok_or in O. destruct O as (O & O4). apply ok_or in O. destruct O as (O & O3). apply ok_or in O. destruct O as (O1 & O2).
    apply (ok_ext sc _ (fun y => if has y [x] then false else sets_blk y b false)) in O4; [|intros y; now rewrite has_one]. apply ok_under in O4.
    change (sim w (grel (fun w => vrel w sc) (sl (outside b (gotos b))))
      (bind (ex1 a r) (fun vs => bind (ex1 z r) (fun ws => bind (exs1 step r) (fun us => for_num m c1 n r (first m vs) (first m ws) (first m us) (fun v => bind (declare m [x] [v] r) (fun r' => blk1 b None r'))))))
      (bind (ex2 (fst (cx sc a)) r') (fun vs => bind (ex2 (fst (cx sc z)) r') (fun ws => bind (exs2 (fst (cxs sc step)) r') (fun us => for_num m c2 n r' (first m vs) (first m ws) (first m us) (fun v => bind (declare m [x] [v] r') (fun r' => blk2 (fst (cbl (plain [x] sc) b (fun _ => false))) None r'))))))).
    bfst (proj1 Ha w sc r r' false L1 F1 O1 R). bfst (proj1 Hz w0 sc r r' false L2 F2 O2 (vrel_ext _ _ _ _ _ E R)).
    bnd (proj1 (exs_sim sc step w1 r r' Hst L3 F3 O3 (vrel_ext _ _ _ _ _ (ext_trans _ _ _ E E0) R))).
    eapply (sim_for_num _ _ (fun w => vrel w sc)); [apply mono_vrel|vx|]. intros w3 v E3.
    eapply sim_bind; [apply (sim_declare [x] [v] w3 sc r r' N); vx|]. intros w4 q q' E4 Q.
    eapply sim_weak; [|exact (body_sim b w4 _ _ _ Hb L4 F4 O4 Q)]. intros ? ? ? _. apply loop_out.
  - intros xs es Hes b Hb b0 tail w sc r r' (L1 & L4) (F1 & N & F4) O R. apply ok_head in O; [|reflexivity].
    change (ok sc (fun y => sets_exs y es || (if has y xs then false else sets_blk y b false))) in O.
    apply ok_or in O. destruct O as (O1 & O4). apply ok_under in O4.
    change (sim w (grel (fun w => vrel w sc) (sl (outside b (gotos b))))
      (bind (exs1 es r) (fun vs => for_in m c1 n r (nth 0 vs (m_nil m)) (nth 1 vs (m_nil m)) (nth 2 vs (m_nil m)) (fun vs => bind (declare m xs vs r) (fun r' => blk1 b None r'))))
      (bind (exs2 (fst (cxs sc es)) r') (fun vs => for_in m c2 n r' (nth 0 vs (m_nil m)) (nth 1 vs (m_nil m)) (nth 2 vs (m_nil m)) (fun vs => bind (declare m xs vs r') (fun r' => blk2 (fst (cbl (plain xs sc) b (fun _ => false))) None r'))))).
    bnd (proj1 (exs_sim sc es w r r' Hes L1 F1 O1 R)).
    eapply (sim_for_in _ _ (fun w => vrel w sc)); [apply mono_vrel|vx|]. intros w3 v E3.
    eapply sim_bind; [apply (sim_declare xs v w3 sc r r' N); vx|]. intros w4 q q' E4 Q.
    eapply sim_weak; [|exact (body_sim b w4 _ _ _ Hb L4 F4 O4 Q)]. intros ? ? ? _. apply loop_out.
  - intros b tail w sc r r' L F O R. apply sim_ret. easy.
  - intros es Hes b tail w sc r r' L F O R. apply ok_head in O; [|reflexivity].
    change (sim w (grel (fun w => vrel w sc) (sl [])) (bind (exs1 es r) (fun vs => ret (Return vs))) (bind (exs2 (fst (cxs sc es)) r') (fun vs => ret (Return vs)))).
    bnd (proj1 (exs_sim sc es w r r' Hes L F O R)). apply sim_ret. easy.
  - intros xs es Hes. now apply local_sim.
  - intros x ps b Hb b0 tail w sc r r' L (N1 & N2 & F) O R.
    change (ok sc (fun y => if zeqb_list y x then false else (if has y (pnames ps) then false else sets_blk y b false) || sets_blk y b0 (tail y))) in O.
    apply (ok_ext sc _ (fun y => if has y [x] then false else (if has y (pnames ps) then false else sets_blk y b false) || sets_blk y b0 (tail y))) in O; [|intros y; now rewrite has_one].
    apply ok_under, ok_or in O. destruct O as (O & _).
    change (sim w (grel (fun w => vrel w (plain [x] sc)) (sl []))
      (bind (new_box (m_nil m)) (fun a => bind (new_fun m (ps, b, (x, a) :: r)) (fun v => bind (set_box a v) (fun _ => ret (Next ((x, a) :: r))))))
      (bind (new_box (m_nil m)) (fun a => bind (new_fun m (ps, fst (cbl (plain (pnames ps) (plain [x] sc)) b (fun _ => false)), (x, a) :: r')) (fun v => bind (set_box a v) (fun _ => ret (Next ((x, a) :: r'))))))).
    eapply sim_bind; [apply (sim_new w None); discriminate|]. intros w1 a a' E (A & ->).
    assert (R1 : vrel w1 (plain [x] sc) ((x, a) :: r) ((x, idx w1 a) :: r')).
    { apply (v_plain w1 x a sc r r'); [intros ->; apply N1; now left|exact A|vx]. }
    bnd (sim_fun w1 _ _ (fun_rel w1 (plain [x] sc) _ _ ps b R1 N2 L F O)).
    eapply (sim_bind _ same); [rewrite <- (ext_idx _ _ _ _ E0 A); apply sim_set; eapply ext_nth; eassumption|]. intros w3 ? ? E3 _. apply next_ret. vx.
  - intros x path meth ps b Hb. now apply fun_sim.
  - intros l b tail w sc r r' L F O R. apply sim_ret. intros w1 E. split; [reflexivity|now left].
  - intros l b tail w sc r r' L F O R. now apply next_ret.
  - intros ts Hts es Hes b tail w sc r r' (L1 & L2) (F1 & F2) O R. apply ok_head, ok_or in O; [|reflexivity]. destruct O as (O1 & O2).
    change (sim w (grel (fun w => vrel w sc) (sl [])) (bind (r_places m c1 dots ts r) (fun ps => bind (exs1 es r) (fun vs => bind (stores m c1 ps vs) (fun _ => ret (Next r)))))
      (bind (r_places m c2 dots (ctg sc ts) r') (fun ps => bind (exs2 (fst (cxs sc es)) r') (fun vs => bind (stores m c2 ps vs) (fun _ => ret (Next r')))))).
    eapply sim_bind; [exact (places_sim sc ts w r r' Hts L1 F1 O1 R)|]. intros w1 p p' E Hp.
    bnd (proj1 (exs_sim sc es w1 r r' Hes L2 F2 O2 (vrel_ext _ _ _ _ _ E R))). bnd (sim_stores _ _ w0 a (prel_exts _ _ _ _ E0 Hp)). apply next_ret. vx.
  - intros t Ht op e He b tail w sc r r' (L1 & L2) (Tg & F1 & F2) O R. apply ok_head in O; [|reflexivity].
    change (ok sc (fun y => (is_var y t || sets_ex y t) || sets_ex y e)) in O. apply ok_or in O. destruct O as (O1 & O2).
    change (sim w (grel (fun w => vrel w sc) (sl []))
      match compound op with None => never | Some op => bind (r_place m c1 dots t r) (fun p => bind (fetch m c1 p) (fun v => bind (ex1 e r) (fun ws => bind (do1 m c1 (ABin op) [v; first m ws]) (fun v => bind (store m c1 p v) (fun _ => ret (Next r)))))) end
      match compound op with None => never | Some op => bind (r_place m c2 dots (tgt sc t) r') (fun p => bind (fetch m c2 p) (fun v => bind (ex2 (fst (cx sc e)) r') (fun ws => bind (do1 m c2 (ABin op) [v; first m ws]) (fun v => bind (store m c2 p v) (fun _ => ret (Next r')))))) end).
    destruct (compound op) as [o|]; [|apply sim_never].
    eapply sim_bind; [exact (proj2 Ht w sc r r' Tg L1 F1 O1 R)|]. intros w1 p p' E Hp. bnd (sim_fetch w1 _ _ Hp).
    bfst (proj1 He w0 sc r r' false L2 F2 O2 (vrel_ext _ _ _ _ _ (ext_trans _ _ _ E E0) R)).
    bnd (sim_do1 w2 (ABin o) [a; first m us] ltac:(sf)). bnd (sim_store w3 _ _ a0 (prel_ext _ _ _ _ (ext_trans _ _ _ E0 (ext_trans _ _ _ E1 E2)) Hp)). apply next_ret. vx.
  - intros es Hes b tail w sc r r' L F O R. apply ok_head in O; [|reflexivity].
    change (sim w (grel (fun w => vrel w sc) (sl [])) (bind (read m c1 r (asc "print")) (fun f => bind (exs1 es r) (fun vs => bind (apply m c1 f vs) (fun _ => ret (Next r)))))
      (bind (read m c2 r' (asc "print")) (fun f => bind (exs2 (fst (cxs sc es)) r') (fun vs => bind (apply m c2 f vs) (fun _ => ret (Next r')))))).
    assert (N : forall v, look (asc "print") sc <> Some (Some v)).
    { intros v Q. pose proof (vrel_find _ _ _ _ (asc "print") R) as H. rewrite Q in H. now destruct H as (_ & _ & H & _). }
    bnd (sim_read w sc r r' _ R N). bnd (proj1 (exs_sim sc es w0 r r' Hes L F O (vrel_ext _ _ _ _ _ E R))). bnd (sim_apply w1 a a0). apply next_ret. vx.
  - intros e He b tail w sc r r' L F O R. apply ok_head in O; [|reflexivity].
    change (sim w (grel (fun w => vrel w sc) (sl [])) (bind (ex1 e r) (fun _ => ret (Next r))) (bind (ex2 (fst (cx sc e)) r') (fun _ => ret (Next r')))).
    eapply sim_bind; [exact (proj1 (proj1 He w sc r r' false L F O R))|]. intros w1 ? ? E _. apply next_ret. vx.
  - (* BNil *) intros sc tail until w L F O. split.
    + intros r r' R. apply sim_ret. intros w1 E _. vx.
    + intros r r' l over _ _. apply sim_ret. intros w1 E. split; [reflexivity|]. split; [now left|intros []].
  - intros s Hs b Hb. now apply blk_sim.
  - intros w c Hc b Hb e He w1 sc r r' (L1 & L2 & L3) (F1 & F2 & F3) O R.
    exact (if_sim' c b e w1 sc r r' (ILong w (fst (cx sc c)) (fst (cbl sc b (fun _ => false))) (cel sc e)) Hc Hb He L1 L2 L3 F1 F2 F3 O R (fun _ => eq_refl)).
  - intros w c Hc b Hb e He w1 sc r r' (L1 & L2 & L3) (F1 & F2 & F3) O R.
    exact (if_sim' c b e w1 sc r r' (IShort w (fst (cx sc c)) (fst (cbl sc b (fun _ => false))) (cel sc e)) Hc Hb He L1 L2 L3 F1 F2 F3 O R (fun _ => eq_refl)).
  - intros w sc r r' L F O R. now apply next_ret.
  - intros b Hb w sc r r' L F O R. exact (do_sim b w sc r r' Hb L F O R).
  - intros i Hi w sc r r' L F O R. pose proof (Hi w sc r r' L F O R) as H.
    change (cel sc (EElif i)) with (match cif sc i with Keep i => EElif i | Take b => EElse b | Drop => ENone end). destruct (cif sc i); exact H.
Qed.
End Body.

(** ** Programs *)
Lemma values_rel N L w (u v : sig) : grel N L w u v -> values u = values v.
Proof. destruct u, v; cbn; try contradiction; auto. Qed.
Lemma crels w : forall l l', Forall2 (crel w) l l' -> forall f, match nth_error l f, nth_error l' f with Some c, Some c' => crel w c c' | None, None => True | _, _ => False end.
Proof. induction 1; intros [|f]; cbn [nth_error]; try exact I; [assumption|apply IHForall2]. Qed.
Lemma sim_call : forall n f args w, sim w same (call m n f args) (call m n f args).
Proof.
  induction n as [|n IH]; intros f args w; [apply sim_never|]. intros w1 E s s' S. cbn [call]. pose proof S as (_ & _ & _ & F).
  pose proof (crels w1 _ _ F f) as Q.
  destruct (nth_error (funs s) f) as [[[ps b] r]|], (nth_error (funs s') f) as [[[ps' b'] r']|]; try contradiction.
  - destruct Q as (sc & R & -> & N & -> & L & Fb & O).
    assert (X : sim w1 same
      (bind (declare m (names_of ps) args r) (fun r => bind (r_blk m (call m n) n (skipn (length (names_of ps)) args) b None r) (fun u => ret (values u))))
      (bind (declare m (names_of ps) args r') (fun r => bind (r_blk m (call m n) n (skipn (length (names_of ps)) args) (fst (cbl (plain (pnames ps) sc) b (fun _ => false))) None r) (fun u => ret (values u))))).
    { eapply sim_bind; [exact (sim_declare (names_of ps) args w1 sc r r' N R)|]. intros w2 q q' E2 Q.
      destruct (const_all _ _ IH n (skipn (length (names_of ps)) args)) as (_ & _ & _ & _ & HB & _).
      eapply sim_bind; [exact (proj1 (HB b _ _ false w2 L Fb O) q q' Q)|]. intros w3 u v E3 G. apply sim_ret. intros w4 E4. eapply values_rel; eassumption. }
    exact (X w1 (ext_refl _) s s' S).
  - exists w1. split; [apply ext_refl|]. split; [exact S|reflexivity].
Qed.
End C.

Theorem const_run {V Mem} (m : machine V Mem) lang value token chars longer calls val whole : computes lang value val whole m ->
  (forall v, S_Fold.value_of lang v -> value (token v) = Some v) -> forall b n me, legal false b -> fine b ->
  (forall s f, In (s, f) builtin_names -> sets_blk (asc s) b false = false -> whole s me) ->
  run m n (fold_consts lang value token chars longer calls b) me = run m n b me.
Proof.
  intros OK TOKEN b n me L F I.
  set (assigned := fun x => sets_blk x b false).
  destruct (const_all m lang value token chars longer calls assigned val whole OK TOKEN _ _ (sim_call m lang value token chars longer calls assigned val whole OK TOKEN n) n []) as (_ & _ & _ & _ & HB & _).
  assert (O : ok_blk assigned [] b (fun _ => false)) by (split; [discriminate|intros x _ H; exact H]).
  pose proof (proj1 (HB b [] (fun _ => false) false [] L F O) [] [] (v_nil _ _ _ _) [] (ext_refl _) (St [] [] me) (St [] [] me)) as H.
  assert (S : srel lang value token chars longer calls assigned val whole [] (St [] [] me) (St [] [] me)) by (split; [constructor|]; split; [easy|]; split; [exact I|constructor]).
  specialize (H S). unfold run. unfold orel in H. change (fst (c_blk lang value token chars longer calls assigned [] b (fun _ => false))) with (fold_consts lang value token chars longer calls b) in H.
  destruct (r_blk m _ _ _ b _ _ _) as [u s|v s|], (r_blk m _ _ _ (fold_consts _ _ _ _ _ _ _) _ _ _) as [u' s'|v' s'|]; try contradiction; [| |easy].
  - destruct H as (w & _ & (_ & -> & _) & H). now rewrite (values_rel _ _ _ _ _ H).
  - destruct H as (-> & w & _ & (_ & -> & _)). reflexivity.
Qed.
