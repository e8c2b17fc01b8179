(** Programs that differ in names only run the same, step by step. *)
From Coq Require Import String List ZArith Bool Lia.
From Verif Require Import M_Base M_Fold M_Token M_Expr M_Stmt S_Run S_Alpha L_Util L_Stmt.
Import ListNotations.

Lemma F2_length {A B} (R : A -> B -> Prop) l l' : Forall2 R l l' -> length l = length l'.
Proof. induction 1; cbn; congruence. Qed.

Section Alpha.
Context {V Mem : Type} (m : machine V Mem) (g k : list Z -> list Z).
Notation M := (M V Mem).
Notation state := (state V Mem).
Notation sig := (sig V).
Context (do2 : ask -> list V -> Mem -> steps V Mem) (DO2 : forall a vs me, do2 a vs me = m_do m (old_ask g a) vs me).
Notation m2 := {| m_nil := m_nil m; m_true := m_true m; m_is_nil := m_is_nil m; m_const := m_const m;
  m_str := fun x => m_str m (k x); m_fun := m_fun m; m_is_fun := m_is_fun m; m_do := do2 |}.
Definition Gg (x x' : list Z) : Prop := g x' = x.
Definition Kk (x x' : list Z) : Prop := k x' = x.
Notation al_ex := (alpha_ex Gg Kk). Notation al_exs := (alpha_exs Gg Kk). Notation al_its := (alpha_its Gg Kk).
Notation al_st := (alpha_st Gg Kk). Notation al_blk := (alpha_blk Gg Kk). Notation al_ifs := (alpha_ifs Gg Kk). Notation al_els := (alpha_els Gg Kk).

(** ** The locals *)
Inductive vrel : pairs -> vars -> vars -> Prop :=
| vrel_nil : vrel [] [] []
| vrel_cons x x' a env r r' : x <> env_var -> x' <> env_var -> vrel env r r' ->
    vrel ((x, x') :: env) ((x, a) :: r) ((x', a) :: r').

Lemma zeqb_no x y : x <> y -> zeqb_list x y = false.
Proof. intros N. destruct (zeqb_list x y) eqn:E; [|easy]. apply zeqb_list_true in E. now destruct N. Qed.
Lemma find_env env r r' : vrel env r r' -> find env_var r = None /\ find env_var r' = None.
Proof.
  induction 1 as [|x x' a env r r' N N' H IH]; [easy|]. cbn [find]. now rewrite !zeqb_no by easy.
Qed.
Lemma find_same env r r' x x' : vrel env r r' -> same_var Gg env x x' ->
  (exists a, find x r = Some a /\ find x' r' = Some a) \/ (find x r = None /\ find x' r' = None /\ g x' = x).
Proof.
  induction 1 as [|y y' a env r r' N N' H IH]; cbn [same_var find].
  - intros E. now right.
  - intros [(-> & ->)|(A & B & S)].
    + rewrite !zeqb_list_refl. left. now exists a.
    + rewrite !zeqb_no by congruence. now apply IH.
Qed.

(** ** States *)
Definition crel (c c' : closure) : Prop :=
  let '(ps, b, r) := c in let '(ps', b', r') := c' in
  exists env, vrel env r r' /\ params_ok ps ps' /\
    al_blk (more (names_of ps) (names_of ps') env) (frame b b') b b' /\ legal false b.
Definition srel (s s' : state) : Prop := boxes s = boxes s' /\ mem s = mem s' /\ Forall2 crel (funs s) (funs s').
Definition orel {A B} (R : A -> B -> Prop) (o : out V Mem A) (o' : out V Mem B) : Prop :=
  match o, o' with
  | Gives a s, Gives b s' => R a b /\ srel s s'
  | Raises v s, Raises v' s' => v = v' /\ srel s s'
  | Unfinished, Unfinished => True
  | _, _ => False
  end.
Definition sim {A B} (R : A -> B -> Prop) (x : M A) (y : M B) : Prop := forall s s', srel s s' -> orel R (x s) (y s').

Lemma sim_ret {A B} (R : A -> B -> Prop) a b : R a b -> sim R (ret a) (ret b).
Proof. intros H s s' S. split; assumption. Qed.
Lemma sim_bind {A B C D} (R : A -> B -> Prop) (Q : C -> D -> Prop) x y f h :
  sim R x y -> (forall a b, R a b -> sim Q (f a) (h b)) -> sim Q (bind x f) (bind y h).
Proof.
  intros H F s s' S. specialize (H s s' S). unfold bind, orel in *.
  destruct (x s), (y s'); try contradiction; try assumption. destruct H as (H & H'). exact (F _ _ H _ _ H').
Qed.
Lemma sim_never {A B} (R : A -> B -> Prop) : sim R never never.
Proof. intros s s' _. exact I. Qed.
Lemma sim_if {A B} (R : A -> B -> Prop) (b : bool) x y x' y' : sim R x x' -> sim R y y' -> sim R (if b then x else y) (if b then x' else y').
Proof. now destruct b. Qed.
Lemma sim_weak {A B} (R Q : A -> B -> Prop) x y : (forall a b, R a b -> Q a b) -> sim R x y -> sim Q x y.
Proof.
  intros W H s s' S. specialize (H s s' S). unfold orel in *. destruct (x s), (y s'); try contradiction; auto.
  destruct H as (H & H'). split; auto.
Qed.
Lemma sim_get a : sim eq (get_box m a) (get_box m2 a).
Proof. intros s s' S. split; [|exact S]. destruct S as (B & _). cbn. now rewrite B. Qed.
Lemma sim_set a v : sim eq (set_box a v) (set_box a v).
Proof. intros s s' (B & E & F). split; [reflexivity|]. unfold srel. cbn [boxes funs mem]. now rewrite B. Qed.
Lemma sim_new v : sim eq (new_box v) (new_box v).
Proof. intros s s' (B & E & F). split; [now rewrite B|]. unfold srel. cbn [boxes funs mem]. now rewrite B. Qed.
Lemma sim_fun c c' : crel c c' -> sim eq (new_fun m c) (new_fun m2 c').
Proof.
  intros H s s' (B & E & F). split; [now rewrite (F2_length _ _ _ F)|].
  unfold srel. cbn [boxes funs mem]. split; [exact B|]. split; [exact E|]. apply Forall2_app; [exact F|]. now constructor.
Qed.

Lemma locals_cons x x' xs xs' : locals_ok (x :: xs) (x' :: xs') -> x <> env_var /\ x' <> env_var /\ locals_ok xs xs'.
Proof.
  intros (L & A & B). cbn [length In] in *. split; [intros ->; apply A; now left|]. split; [intros ->; apply B; now left|].
  repeat split; [congruence|intros H; apply A; now right|intros H; apply B; now right].
Qed.
Lemma sim_declare : forall xs xs' vs env r r', locals_ok xs xs' -> vrel env r r' ->
  sim (vrel (more xs xs' env)) (declare m xs vs r) (declare m2 xs' vs r').
Proof.
  induction xs as [|x xs IH]; intros [|x' xs'] vs env r r' L R; try (destruct L as (L & _); discriminate L).
  - now apply sim_ret.
  - apply locals_cons in L. destruct L as (N & N' & L). cbn [declare].
    apply (sim_bind eq); [exact (sim_new _)|]. intros a ? <-.
    assert (E : more (x :: xs) (x' :: xs') env = more xs xs' ((x, x') :: env)) by (unfold more; cbn [combine rev]; now rewrite <- app_assoc).
    rewrite E. apply IH; [exact L|]. now constructor.
Qed.

Section Body.
Context (c1 c2 : nat -> list V -> M (list V)).
Context (CALL : forall f args, sim eq (c1 f args) (c2 f args)).

Lemma follow_sim : forall t, sim eq (follow c1 t) (follow c2 t).
Proof.
  induction t as [vs me|v me|f args me c IH]; intros s s' (B & E & F); cbn [follow].
  - split; [reflexivity|]. now split.
  - split; [reflexivity|]. now split.
  - assert (S : srel (St (boxes s) (funs s) me) (St (boxes s') (funs s') me)) by now split.
    specialize (CALL f args _ _ S). unfold orel in CALL.
    destruct (c1 f args _) as [vs t|v t|], (c2 f args _) as [ws t'|w t'|]; try contradiction; [| |exact I];
      destruct CALL as (<- & S'); pose proof S' as (_ & <- & _); now apply IH.
Qed.
Lemma sim_do a vs : sim eq (do_ m c1 (old_ask g a) vs) (do_ m2 c2 a vs).
Proof. intros s s' S. unfold do_. cbn [m_do]. pose proof S as (_ & <- & _). rewrite DO2. now apply follow_sim. Qed.
Lemma sim_do1 a vs : sim eq (do1 m c1 (old_ask g a) vs) (do1 m2 c2 a vs).
Proof. apply (sim_bind eq); [apply sim_do|]. intros ? ? <-. now apply sim_ret. Qed.
Lemma sim_apply f args : sim eq (apply m c1 f args) (apply m2 c2 f args).
Proof. unfold apply. cbn [m_is_fun]. destruct (m_is_fun m f); [apply CALL|apply (sim_do ACall)]. Qed.

(** what places become *)
Definition prel (p p' : place V) : Prop :=
  match p, p' with
  | PBox a, PBox a' => a = a'
  | PGlobal x, PGlobal x' => g x' = x
  | PIndex t i, PIndex t' i' => t = t' /\ i = i'
  | _, _ => False
  end.
Lemma sim_read env r r' x x' : vrel env r r' -> same_var Gg env x x' -> sim eq (read m c1 r x) (read m2 c2 r' x').
Proof.
  intros R S. unfold read. destruct (find_same _ _ _ _ _ R S) as [(a & -> & ->)|(-> & -> & E)]; [apply sim_get|].
  destruct (find_env _ _ _ R) as (A & B). change (asc "_ENV") with env_var. rewrite A, B. subst x. exact (sim_do1 (AGlobal x') []).
Qed.
Lemma sim_place_of env r r' x x' : vrel env r r' -> same_var Gg env x x' -> sim prel (place_of m r x) (place_of m2 r' x').
Proof.
  intros R S. unfold place_of. destruct (find_same _ _ _ _ _ R S) as [(a & -> & ->)|(-> & -> & E)]; [now apply sim_ret|].
  destruct (find_env _ _ _ R) as (A & B). change (asc "_ENV") with env_var. rewrite A, B. now apply sim_ret.
Qed.
Lemma sim_fetch p p' : prel p p' -> sim eq (fetch m c1 p) (fetch m2 c2 p').
Proof.
  destruct p, p'; cbn [prel fetch]; try contradiction.
  - intros ->. apply sim_get.
  - intros <-. exact (sim_do1 (AGlobal x0) []).
  - intros (-> & ->). exact (sim_do1 AIndex _).
Qed.
Lemma sim_store p p' v : prel p p' -> sim eq (store m c1 p v) (store m2 c2 p' v).
Proof.
  destruct p, p'; cbn [prel store]; try contradiction.
  - intros ->. apply sim_set.
  - intros <-. apply (sim_bind eq); [exact (sim_do (ASetGlobal x0) [v])|]. intros. now apply sim_ret.
  - intros (-> & ->). apply (sim_bind eq); [exact (sim_do ASetIndex _)|]. intros. now apply sim_ret.
Qed.
Lemma sim_stores : forall ps ps' vs, Forall2 prel ps ps' -> sim eq (stores m c1 ps vs) (stores m2 c2 ps' vs).
Proof.
  intros ps ps' vs H. revert vs. induction H; intros vs; cbn [stores]; [now apply sim_ret|].
  apply (sim_bind eq); [apply IHForall2|]. intros. now apply sim_store.
Qed.
Lemma sim_items : forall vs t n, sim eq (items m c1 t n vs) (items m2 c2 t n vs).
Proof.
  induction vs; intros; cbn [items]; [now apply sim_ret|]. apply (sim_bind eq); [exact (sim_do (AItem n) _)|]. intros. apply IHvs.
Qed.
Lemma sim_walk : forall ks ks' v i i', Kk i i' -> Forall2 Kk ks ks' -> sim prel (walk m c1 v i ks) (walk m2 c2 v i' ks').
Proof.
  intros ks ks' v i i' E H. revert v i i' E. induction H as [|j j' ks ks' J H IH]; intros v i i' E; cbn [walk].
  - apply sim_ret. unfold prel. cbn [m_str]. now rewrite E.
  - apply (sim_bind eq); [|intros ? ? <-; now apply IH]. cbn [m_str]. rewrite E. exact (sim_do1 AIndex _).
Qed.
Lemma sim_path env r r' x x' ks ks' : vrel env r r' -> same_var Gg env x x' -> Forall2 Kk ks ks' ->
  sim prel (path_of m c1 r x ks) (path_of m2 c2 r' x' ks').
Proof.
  intros R S H. destruct H; cbn [path_of]; [now apply (sim_place_of env)|].
  apply (sim_bind eq); [now apply (sim_read env)|]. intros ? ? <-. now apply sim_walk.
Qed.

(** ** Loops *)
Definition optrel {A B} (R : A -> B -> Prop) (x : option A) (y : option B) : Prop :=
  match x, y with Some a, Some b => R a b | None, None => True | _, _ => False end.
Lemma sim_loop {A B} (R : A -> B -> Prop) : forall n x y, sim (optrel R) x y -> sim R (loop n x) (loop n y).
Proof.
  induction n; intros x y H; cbn [loop]; [apply sim_never|]. apply (sim_bind (optrel R)); [exact H|].
  intros [a|] [b|] E; try contradiction; [now apply sim_ret|now apply IHn].
Qed.
(** How something ends; [N]: the locals behind it, [L]: the jumps. *)
Definition grel (N : vars -> vars -> Prop) (L : list Z -> list Z -> Prop) (u v : sig) : Prop :=
  match u, v with
  | Next r, Next r' => N r r'
  | Break, Break => True
  | Return vs, Return vs' => vs = vs'
  | Goto l, Goto l' => L l l'
  | _, _ => False
  end.
Lemma after_rel N L (N2 : vars -> vars -> Prop) r r' u v : N2 r r' -> grel N L u v -> optrel (grel N2 L) (after r u) (after r' v).
Proof. destruct u, v; cbn; auto; contradiction. Qed.
Lemma leave_rel N L (N2 : vars -> vars -> Prop) r r' u v : N2 r r' -> grel N L u v -> grel N2 L (leave r u) (leave r' v).
Proof. destruct u, v; cbn; auto; contradiction. Qed.
Lemma sim_for_num N L (N2 : vars -> vars -> Prop) r r' : N2 r r' -> forall n i z step f h, (forall v, sim (grel N L) (f v) (h v)) ->
  sim (grel N2 L) (for_num m c1 n r i z step f) (for_num m2 c2 n r' i z step h).
Proof.
  intros Hr. induction n; intros i z step f h H; cbn [for_num]; [apply sim_never|].
  apply (sim_bind eq); [exact (sim_do1 AForTest _)|]. intros t ? <-. cbn [m_true]. apply sim_if; [|now apply sim_ret].
  apply (sim_bind (grel N L)); [apply H|]. intros u v E. pose proof (after_rel _ _ N2 r r' _ _ Hr E) as E'.
  destruct (after r u), (after r' v); cbn [optrel] in E'; try contradiction; [now apply sim_ret|].
  apply (sim_bind eq); [exact (sim_do1 AForNext _)|]. intros w ? <-. now apply IHn.
Qed.
Lemma sim_for_in N L (N2 : vars -> vars -> Prop) r r' : N2 r r' -> forall n x y z f h, (forall v, sim (grel N L) (f v) (h v)) ->
  sim (grel N2 L) (for_in m c1 n r x y z f) (for_in m2 c2 n r' x y z h).
Proof.
  intros Hr. induction n; intros x y z f h H; cbn [for_in]; [apply sim_never|].
  apply (sim_bind eq); [apply sim_apply|]. intros t ? <-. cbn [m_is_nil]. change (first m2 t) with (first m t).
  apply sim_if; [now apply sim_ret|].
  apply (sim_bind (grel N L)); [apply H|]. intros u v E. pose proof (after_rel _ _ N2 r r' _ _ Hr E) as E'.
  destruct (after r u), (after r' v); cbn [optrel] in E'; try contradiction; [now apply sim_ret|]. now apply IHn.
Qed.

(** ** Expressions *)
Context (n : nat) (dots : list V).
Notation ex1 := (r_ex m c1 dots). Notation ex2 := (r_ex m2 c2 dots).
Notation exs1 := (r_exs m c1 dots). Notation exs2 := (r_exs m2 c2 dots).
Notation its1 := (r_its m c1 dots). Notation its2 := (r_its m2 c2 dots).
Notation st1 := (r_st m c1 n dots). Notation st2 := (r_st m2 c2 n dots).
Notation blk1 := (r_blk m c1 n dots). Notation blk2 := (r_blk m2 c2 n dots).
Notation ifs1 := (r_ifs m c1 n dots). Notation ifs2 := (r_ifs m2 c2 n dots).
Notation els1 := (r_els m c1 n dots). Notation els2 := (r_els m2 c2 n dots).

Definition PE (e : ex) : Prop := forall e' env r r', al_ex env e e' -> legal_ex e -> vrel env r r' ->
  sim eq (ex1 e r) (ex2 e' r') /\ sim prel (r_place m c1 dots e r) (r_place m2 c2 dots e' r').
Definition PEs (es : exs) : Prop := forall es' env r r', al_exs env es es' -> legal_exs es -> vrel env r r' ->
  sim eq (exs1 es r) (exs2 es' r') /\ sim (Forall2 prel) (r_places m c1 dots es r) (r_places m2 c2 dots es' r').
Definition PI (i : its) : Prop := forall i' env r r', al_its env i i' -> legal_its i -> vrel env r r' -> forall t j,
  sim eq (its1 i r t j) (its2 i' r' t j).
(** The jumps out of a statement: to labels that can be seen. *)
Definition SL (lab : pairs) (ls : list (list Z)) (l l' : list Z) : Prop := same_label lab l l' /\ In l ls.
Definition PS (s : st) : Prop := forall s' env lab r r', al_st env lab s s' -> legal_st s -> vrel env r r' ->
  sim (grel (vrel (env_st env s s')) (SL lab (gotos_st s))) (st1 s r) (st2 s' r').
(** Out of a block: not to its own labels. *)
Definition BL (lab : pairs) (b : blk) (l l' : list Z) : Prop :=
  same_label lab l l' /\ In l (gotos b) /\ ~ In l (labels b).
(** A jump to [l0] that found no label goes on. *)
Definition BS (lab : pairs) (over : bool) (l0 : list Z) (b : blk) (l l' : list Z) : Prop :=
  same_label lab l l' /\ (l = l0 \/ over = false /\ In l (gotos b)) /\ ~ In l (labels b).
Definition NR (until : bool) (env : pairs) (r r' : vars) : Prop := until = true -> vrel env r r'.
Definition PB (b : blk) : Prop := forall b' env lab until, al_blk env lab b b' -> legal until b ->
  (forall r r', vrel env r r' -> sim (grel (NR until (env_blk env b b')) (BL lab b)) (blk1 b None r) (blk2 b' None r')) /\
  (forall r r' l l' over, same_label lab l l' -> reach until l over b -> (over = false -> vrel env r r') ->
    sim (grel (NR until (env_blk env b b')) (BS lab over l b)) (blk1 b (Some l) r) (blk2 b' (Some l') r')).
Definition PF (i : ifs) : Prop := forall i' env lab r r', al_ifs env lab i i' -> legal_ifs i -> vrel env r r' ->
  sim (grel (vrel env) (SL lab (gotos_ifs i))) (ifs1 i r) (ifs2 i' r').
Definition PL (e : els) : Prop := forall e' env lab r r', al_els env lab e e' -> legal_els e -> vrel env r r' ->
  sim (grel (vrel env) (SL lab (gotos_els e))) (els1 e r) (els2 e' r').

Lemma label_skip lab : forall ls ls' l l', same_label (combine ls ls' ++ lab) l l' -> ~ In l ls -> same_label lab l l'.
Proof.
  induction ls as [|y ls IH]; intros [|y' ls'] l l' S N; try exact S. cbn [combine app same_label] in S.
  destruct S as [(-> & _)|(_ & _ & S)]; [destruct N; now left|]. apply (IH ls'); [exact S|]. intros H. apply N. now right.
Qed.
Lemma label_eq : forall lab a a' b b', same_label lab a a' -> same_label lab b b' -> zeqb_list a b = zeqb_list a' b'.
Proof.
  induction lab as [|(y & y') lab IH]; intros a a' b b' A B; [destruct A|]. cbn [same_label] in *.
  destruct A as [(-> & ->)|(A1 & A2 & A)], B as [(-> & ->)|(B1 & B2 & B)].
  - now rewrite !zeqb_list_refl.
  - now rewrite !zeqb_no by congruence.
  - now rewrite !zeqb_no by congruence.
  - now apply IH.
Qed.
Lemma in_outside b l ls : In l ls -> ~ In l (labels b) -> In l (outside b ls).
Proof.
  intros H N. unfold outside. apply filter_In. split; [exact H|]. destruct (existsb _ _) eqn:E; [|easy].
  apply existsb_exists in E. destruct E as (x & E & Q). apply zeqb_list_true in Q. now subst.
Qed.
(** Behind a block of a statement. *)
Lemma out_of_block until env env2 lab b b' u v r r' : vrel env r r' ->
  grel (NR until env2) (BL (frame b b' ++ lab) b) u v -> grel (vrel env) (SL lab (outside b (gotos b))) (leave r u) (leave r' v).
Proof.
  intros R. destruct u, v; cbn; try contradiction; auto. intros (S & I & N). split; [|now apply in_outside].
  eapply label_skip; eassumption.
Qed.
Lemma grel_weak (N N2 : vars -> vars -> Prop) (L L2 : list Z -> list Z -> Prop) u v :
  (forall r r', N r r' -> N2 r r') -> (forall l l', L l l' -> L2 l l') -> grel N L u v -> grel N2 L2 u v.
Proof. intros A B. destruct u, v; cbn; auto. Qed.
Lemma SL_app lab a b l l' : SL lab a l l' -> SL lab (a ++ b) l l'. Proof. intros (S & I). split; [exact S|]. apply in_or_app. now left. Qed.
Lemma SL_app' lab a b l l' : SL lab b l l' -> SL lab (a ++ b) l l'. Proof. intros (S & I). split; [exact S|]. apply in_or_app. now right. Qed.

Lemma fun_rel env r r' ps ps' b b' : vrel env r r' -> params_ok ps ps' ->
  al_blk (more (names_of ps) (names_of ps') env) (frame b b') b b' -> legal false b -> crel (ps, b, r) (ps', b', r').
Proof. intros. exists env. auto. Qed.

Ltac bnd H := eapply (sim_bind eq); [exact H|intros ? ? <-].
Ltac rt := apply sim_ret; reflexivity.

Lemma void_sim : forall b b' env lab r r' L, void b = true -> al_blk env lab b b' ->
  sim (grel (fun _ _ => True) L) (blk1 b None r) (blk2 b' None r').
Proof.
  induction b as [|s b IH]; intros [|s' b'] env lab r r' L E A; try (exfalso; exact A); [now apply sim_ret|].
  cbn [void] in E. apply andb_prop in E. destruct E as (Es & E). destruct A as (As & A).
  destruct s; try discriminate Es; destruct s'; try (exfalso; exact As).
  - intros x x' X. exact (IH b' _ _ r r' L E A x x' X).
  - change (sim (grel (fun _ _ => True) L) (labelled n x (blk1 b None r)) (labelled n x0 (blk2 b' None r'))). apply sim_loop.
    apply (sim_bind (grel (fun _ _ => True) (fun _ _ => False))); [exact (IH b' _ _ r r' (fun _ _ => False) E A)|].
    intros [] [] H; try contradiction; apply sim_ret; exact H.
Qed.

Lemma blk1_cons s b skip r : (forall l, s <> SLabel l) -> blk1 (BCons s b) skip r =
  match skip with
  | Some _ => blk1 b skip r
  | None => bind (st1 s r) (fun u => match u with Next r' => blk1 b None r' | Goto l => blk1 b (Some l) r | u => ret u end)
  end.
Proof. intros N. destruct s; try reflexivity. now destruct (N x). Qed.
Lemma blk2_cons s b skip r : (forall l, s <> SLabel l) -> blk2 (BCons s b) skip r =
  match skip with
  | Some _ => blk2 b skip r
  | None => bind (st2 s r) (fun u => match u with Next r' => blk2 b None r' | Goto l => blk2 b (Some l) r | u => ret u end)
  end.
Proof. intros N. destruct s; try reflexivity. now destruct (N x). Qed.

Definition localish (s : st) : bool := match s with SLocal _ _ | SLocalFun _ _ _ => true | _ => false end.
Lemma reach_cons until l over s b : (forall l, s <> SLabel l) -> reach until l over (BCons s b) = reach until l (over || localish s) b.
Proof. intros N. destruct s; cbn [reach localish]; rewrite ?orb_false_r, ?orb_true_r; try reflexivity. now destruct (N x). Qed.
Lemma labels_cons s b : (forall l, s <> SLabel l) -> labels (BCons s b) = labels b.
Proof. intros N. destruct s; try reflexivity. now destruct (N x). Qed.
Lemma env_st_id env s s' : localish s = false -> env_st env s s' = env.
Proof. destruct s; cbn; try reflexivity; discriminate. Qed.
Lemma no_gotos s : localish s = true -> gotos_st s = []. Proof. destruct s; cbn; try reflexivity; discriminate. Qed.
Lemma not_label_dec s : (exists l, s = SLabel l) \/ (forall l, s <> SLabel l).
Proof. destruct s; try (right; discriminate). left. now exists x. Qed.


Lemma labelled_sim until env lab b l l' (L : list Z -> list Z -> Prop) x y :
  same_label lab l l' -> (forall z z', BL lab b z z' -> z <> l -> L z z') ->
  sim (grel (NR until env) (BL lab b)) x y -> sim (grel (NR until env) L) (labelled n l x) (labelled n l' y).
Proof.
  intros S Sub H. apply sim_loop. apply (sim_bind (grel (NR until env) (BL lab b))); [exact H|].
  intros [] [] Q; try contradiction; apply sim_ret; try exact Q. cbn [grel] in Q. pose proof Q as (A & _).
  pose proof (label_eq lab _ _ _ _ A S) as E. destruct (zeqb_list l0 l) eqn:Z; rewrite <- E; [exact I|].
  apply Sub; [exact Q|]. intros ->. now rewrite zeqb_list_refl in Z.
Qed.

Lemma blk_sim s b : PS s -> PB b -> PB (BCons s b).
Proof.
  intros Hs Hb b'0 env lab until A (Lg & Ls & Lb). destruct b'0 as [|s' b']; [exfalso; exact A|]. destruct A as (As & Ab).
  destruct (Hb b' _ _ until Ab Lb) as (HN & HS). cbn [env_blk].
  destruct (not_label_dec s) as [(l0 & ->)|N].
  - destruct s'; try (exfalso; exact As). rename x into l0'. change (same_label lab l0 l0') in As. cbn [env_st] in *.
    assert (Lab : forall r r' (L : list Z -> list Z -> Prop), (forall z z', BL lab b z z' -> z <> l0 -> L z z') -> vrel env r r' ->
      sim (grel (NR until (env_blk env b b')) L) (labelled n l0 (blk1 b None r)) (labelled n l0' (blk2 b' None r'))).
    { intros r r' L HL R. apply (labelled_sim _ _ lab b); [exact As|exact HL|now apply HN]. }
    split.
    + intros r r' R. apply (Lab r r'); [|exact R]. intros z z' (A & B & C) D. split; [exact A|]. split; [exact B|].
      intros [E|E]; [now symmetry in E|contradiction].
    + intros r r' l l' over Sl Rc Rv. cbn [reach] in Rc.
      change (sim (grel (NR until (env_blk env b b')) (BS lab over l (BCons (SLabel l0) b)))
        (if zeqb_list l l0 then labelled n l0 (blk1 b None r) else bind (blk1 b (Some l) r) (fun u => match u with Goto x => if zeqb_list x l0 then labelled n l0 (blk1 b None r) else ret u | u => ret u end))
        (if zeqb_list l' l0' then labelled n l0' (blk2 b' None r') else bind (blk2 b' (Some l') r') (fun u => match u with Goto x => if zeqb_list x l0' then labelled n l0' (blk2 b' None r') else ret u | u => ret u end))).
      rewrite <- (label_eq lab _ _ _ _ Sl As). destruct (zeqb_list l l0) eqn:Z.
      * destruct Rc as [->|(-> & Vd)].
        -- apply Lab; [|now apply Rv]. intros z z' (A & B & C) D. split; [exact A|]. split; [now right|].
           intros [E|E]; [now symmetry in E|contradiction].
        -- apply sim_loop. apply (sim_bind (grel (fun _ _ => True) (fun _ _ => False))); [exact (void_sim b b' _ _ r r' _ Vd Ab)|].
           intros [] [] Q; try contradiction; apply sim_ret; try exact Q. cbn. discriminate.
      * apply (sim_bind (grel (NR until (env_blk env b b')) (BS lab over l b))); [now apply HS|].
        intros [] [] Q; try contradiction; try (apply sim_ret; exact Q). cbn [grel] in Q. destruct Q as (A & B & C).
        pose proof (label_eq lab _ _ _ _ A As) as E. rewrite <- E. destruct (zeqb_list l1 l0) eqn:Z1.
        -- apply zeqb_list_true in Z1. subst l1. destruct B as [->|(-> & B)]; [now rewrite zeqb_list_refl in Z|].
           apply Lab; [|now apply Rv]. intros z z' (A' & B' & C') D. split; [exact A'|]. split; [now right|].
           intros [F|F]; [now symmetry in F|contradiction].
        -- apply sim_ret. split; [exact A|]. split; [exact B|]. intros [->|F]; [now rewrite zeqb_list_refl in Z1|contradiction].
  - assert (N' : forall l, s' <> SLabel l).
    { intros l ->. destruct s; try (exfalso; exact As). now destruct (N x). }
    assert (EL : labels (BCons s b) = labels b) by now apply labels_cons.
    split.
    + intros r r' R. rewrite blk1_cons, blk2_cons by assumption.
      apply (sim_bind (grel (vrel (env_st env s s')) (SL lab (gotos_st s)))); [now apply Hs|].
      intros [r1| |vs|l] [r1'| |vs'|l'] Q; try contradiction; try (apply sim_ret; exact Q).
      * apply (sim_weak (grel (NR until (env_blk (env_st env s s') b b')) (BL lab b))); [|now apply HN].
        intros u v. apply grel_weak; [auto|]. intros x x' (A & B & C). split; [exact A|]. rewrite EL. split; [|exact C].
        cbn [gotos]. apply in_or_app. now right.
      * destruct Q as (Sl & Il). rewrite Forall_forall in Lg. pose proof (Lg _ Il) as Rc.
        assert (Nl : localish s = false) by (destruct (localish s) eqn:Q; [|easy]; now rewrite no_gotos in Il).
        rewrite (env_st_id env s s' Nl) in *.
        apply (sim_weak (grel (NR until (env_blk env b b')) (BS lab false l b))); [|now apply HS].
        intros u v. apply grel_weak; [auto|]. intros x x' (A & B & C). split; [exact A|]. rewrite EL. split; [|exact C].
        cbn [gotos]. apply in_or_app. destruct B as [->|(_ & B)]; [now left|now right].
    + intros r r' l l' over Sl Rc Rv. rewrite blk1_cons, blk2_cons by assumption. rewrite reach_cons in Rc by assumption.
      apply (sim_weak (grel (NR until (env_blk (env_st env s s') b b')) (BS lab (over || localish s) l b))).
      * intros u v. apply grel_weak; [auto|]. intros x x' (A & B & C). split; [exact A|]. rewrite EL. split; [|exact C].
        destruct B as [->|(B1 & B2)]; [now left|]. right. apply orb_false_elim in B1. split; [easy|]. cbn [gotos]. apply in_or_app. now right.
      * apply HS; [exact Sl|exact Rc|]. intros Q. apply orb_false_elim in Q. destruct Q as (Q1 & Q2). rewrite env_st_id by exact Q2. now apply Rv.
Qed.

(** the block of a statement *)
Lemma body_sim b b' env lab r r' : PB b -> al_blk env (frame b b' ++ lab) b b' -> legal false b -> vrel env r r' ->
  sim (grel (NR false (env_blk env b b')) (BL (frame b b' ++ lab) b)) (blk1 b None r) (blk2 b' None r').
Proof. intros H A L R. exact (proj1 (H b' env _ false A L) r r' R). Qed.
Lemma do_sim b b' env lab r r' : PB b -> al_blk env (frame b b' ++ lab) b b' -> legal false b -> vrel env r r' ->
  sim (grel (vrel env) (SL lab (outside b (gotos b)))) (bind (blk1 b None r) (fun u => ret (leave r u))) (bind (blk2 b' None r') (fun u => ret (leave r' u))).
Proof.
  intros H A L R. eapply sim_bind; [apply (body_sim b b' env lab); assumption|]. intros u v Q. apply sim_ret.
  eapply out_of_block; eassumption.
Qed.
Lemma after_out until env env2 lab b b' u v r r' : vrel env r r' ->
  grel (NR until env2) (BL (frame b b' ++ lab) b) u v -> optrel (grel (vrel env) (SL lab (outside b (gotos b)))) (after r u) (after r' v).
Proof.
  intros R. destruct u, v; cbn; try contradiction; auto. intros (S & I & N). split; [|now apply in_outside].
  eapply label_skip; eassumption.
Qed.
Lemma loop_out until env2 lab b b' u v : grel (NR until env2) (BL (frame b b' ++ lab) b) u v ->
  grel (NR until env2) (SL lab (outside b (gotos b))) u v.
Proof.
  destruct u, v; cbn; try contradiction; auto. intros (S & I & N). split; [|now apply in_outside].
  eapply label_skip; eassumption.
Qed.
Lemma while_sim c c' b b' env lab r r' : PE c -> PB b -> al_ex env c c' -> al_blk env (frame b b' ++ lab) b b' -> legal_ex c -> legal false b ->
  vrel env r r' -> sim (grel (vrel env) (SL lab (outside b (gotos b)))) (st1 (SWhile c b) r) (st2 (SWhile c' b') r').
Proof.
  intros Hc Hb Ac Ab Lc Lb R. apply (sim_loop (grel (vrel env) (SL lab (outside b (gotos b)))) n).
  bnd (proj1 (Hc c' env r r' Ac Lc R)). apply (sim_if _ (test m a)); [|now apply sim_ret].
  eapply sim_bind; [apply (body_sim b b' env lab); assumption|]. intros u v Q. apply sim_ret. eapply after_out; eassumption.
Qed.
Lemma if_sim c c' b b' e e' env lab r r' : PE c -> PB b -> PL e -> al_ex env c c' -> al_blk env (frame b b' ++ lab) b b' -> al_els env lab e e' ->
  legal_ex c -> legal false b -> legal_els e -> vrel env r r' ->
  sim (grel (vrel env) (SL lab (outside b (gotos b) ++ gotos_els e))) (ifs1 (ILong [] c b e) r) (ifs2 (ILong [] c' b' e') r').
Proof.
  intros Hc Hb He Ac Ab Ae Lc Lb Le R.
  eapply (sim_bind eq); [exact (proj1 (Hc c' env r r' Ac Lc R))|intros ? ? <-]. apply (sim_if _ (test m a)).
  - eapply sim_weak; [|apply (do_sim b b' env lab); assumption]. intros u v. apply grel_weak; [auto|]. intros. now apply SL_app.
  - eapply sim_weak; [|exact (He e' env lab r r' Ae Le R)]. intros u v. apply grel_weak; [auto|]. intros. now apply SL_app'.
Qed.
Lemma next_ret env lab ls r r' : vrel env r r' -> sim (grel (vrel env) (SL lab ls)) (ret (Next r)) (ret (Next r')).
Proof. intros R. now apply sim_ret. Qed.

Theorem alpha_all : (forall e, PE e) /\ (forall es, PEs es) /\ (forall i, PI i) /\ (forall s, PS s) /\ (forall b, PB b) /\ (forall i, PF i) /\ (forall e, PL e).
Proof.
  apply prog_all.
  - (* XConst *) intros t e' env r r' A L R. destruct e'; try (exfalso; exact A). cbn in A. subst. split; [rt|apply sim_never].
  - intros e' env r r' A L R. destruct e'; try (exfalso; exact A). split; [rt|apply sim_never].
  - intros x e' env r r' A L R. destruct e'; try (exfalso; exact A). split; [|exact (sim_place_of _ _ _ _ _ R A)].
    bnd (sim_read _ _ _ _ _ R A). rt.
  - intros ps b Hb e' env r r' A L R. destruct e'; try (exfalso; exact A). destruct A as (P & A). split; [|apply sim_never].
    bnd (sim_fun _ _ (fun_rel _ _ _ _ _ _ _ R P A L)). rt.
  - intros e He e' env r r' A L R. destruct e'; try (exfalso; exact A). split; [|apply sim_never].
    bnd (proj1 (He _ _ _ _ A L R)). rt.
  - intros op e He e' env r r' A L R. destruct e'; try (exfalso; exact A). destruct A as (<- & A). split; [|apply sim_never].
    bnd (proj1 (He _ _ _ _ A L R)). bnd (sim_do1 (AUn op) [first m a]). rt.
  - intros op a Ha b Hb e' env r r' A L R. destruct e'; try (exfalso; exact A). destruct A as (<- & A & B). destruct L as (L1 & L2). split; [|apply sim_never].
    pose proof (proj1 (Hb _ _ _ _ B L2 R)) as Hb2.
    bnd (proj1 (Ha _ _ _ _ A L1 R)). apply (sim_if _ (is_op op "and")).
    + apply (sim_if _ (test m a0)); [bnd Hb2; rt|rt].
    + apply (sim_if _ (is_op op "or")); [apply (sim_if _ (test m a0)); [rt|bnd Hb2; rt]|].
      bnd Hb2. bnd (sim_do1 (ABin op) [first m a0; first m a1]). rt.
  - intros e He key e' env r r' A L R. destruct e'; try (exfalso; exact A). destruct A as (A & <-).
    pose proof (proj1 (He _ _ _ _ A L R)) as H. split.
    + bnd H. bnd (sim_do1 AIndex [first m a; m_str m (k key0)]). rt.
    + bnd H. apply sim_ret. now split.
  - intros e He i Hi e' env r r' A L R. destruct e'; try (exfalso; exact A). destruct A as (A & B). destruct L as (L1 & L2).
    pose proof (proj1 (He _ _ _ _ A L1 R)) as H. pose proof (proj1 (Hi _ _ _ _ B L2 R)) as H'. split.
    + bnd H. bnd H'. bnd (sim_do1 AIndex [first m a; first m a0]). rt.
    + bnd H. bnd H'. apply sim_ret. now split.
  - intros f Hf short args Hargs e' env r r' A L R. destruct e'; try (exfalso; exact A). destruct A as (A & B). destruct L as (L1 & L2). split; [|apply sim_never].
    bnd (proj1 (Hf _ _ _ _ A L1 R)). bnd (proj1 (Hargs _ _ _ _ B L2 R)). exact (sim_apply (first m a) a0).
  - intros e He key short args Hargs e' env r r' A L R. destruct e'; try (exfalso; exact A). destruct A as (A & <- & B). destruct L as (L1 & L2). split; [|apply sim_never].
    bnd (proj1 (He _ _ _ _ A L1 R)). bnd (sim_do1 AIndex [first m a; m_str m (k key0)]). bnd (proj1 (Hargs _ _ _ _ B L2 R)). exact (sim_apply a0 (first m a :: a1)).
  - intros i Hi e' env r r' A L R. destruct e'; try (exfalso; exact A). split; [|apply sim_never].
    bnd (sim_do1 ATable []). bnd (Hi _ _ _ _ A L R a 1%nat). rt.
  - (* XNil *) intros es' env r r' A L R. destruct es'; try (exfalso; exact A). split; [rt|]. apply sim_ret. constructor.
  - intros e He es Hes es' env r r' A L R. destruct es'; try (exfalso; exact A). destruct A as (A & B). destruct L as (L1 & L2).
    pose proof (He _ _ _ _ A L1 R) as (H1 & H2). pose proof (Hes _ _ _ _ B L2 R) as (H3 & H4). split.
    + destruct es as [|e2 es], es' as [|e2' es']; try (exfalso; exact B); [exact H1|].
      bnd H1. bnd H3. rt.
    + eapply sim_bind; [exact H2|]. intros p p' Hp. eapply sim_bind; [exact H4|]. intros q q' Hq. apply sim_ret. now constructor.
  - intros i' env r r' A L R t j. destruct i'; try (exfalso; exact A). rt.
  - intros key Hk v Hv sep i Hi i' env r r' A L R t j. destruct i'; try (exfalso; exact A). destruct A as (A & B & C). destruct L as (L1 & L2 & L3).
    bnd (proj1 (Hk _ _ _ _ A L1 R)). bnd (proj1 (Hv _ _ _ _ B L2 R)). bnd (sim_do ASetIndex [t; first m a; first m a0]). exact (Hi _ _ _ _ C L3 R t j).
  - intros key v Hv sep i Hi i' env r r' A L R t j. destruct i'; try (exfalso; exact A). destruct A as (<- & B & C). destruct L as (L2 & L3).
    bnd (proj1 (Hv _ _ _ _ B L2 R)). bnd (sim_do ASetIndex [t; m_str m (k key0); first m a]). exact (Hi _ _ _ _ C L3 R t j).
  - intros e He sep i Hi i' env r r' A L R t j. destruct i'; try (exfalso; exact A). destruct A as (A & C). destruct L as (L1 & L3).
    pose proof (proj1 (He _ _ _ _ A L1 R)) as H. pose proof (Hi _ _ _ _ C L3 R t (S j)) as H'.
    destruct i, i'; try (exfalso; exact C); [bnd H; apply sim_items|..]; bnd H; bnd (sim_do (AItem j) [t; first m a]); exact H'.
  - (* SSemi *) intros s' env lab r r' A L R. destruct s'; try (exfalso; exact A). now apply next_ret.
  - intros b Hb s' env lab r r' A L R. destruct s'; try (exfalso; exact A). exact (do_sim _ _ _ _ _ _ Hb A L R).
  - intros i Hi s' env lab r r' A L R. destruct s'; try (exfalso; exact A). exact (Hi _ _ _ _ _ A L R).
  - intros c Hc b Hb s' env lab r r' A L R. destruct s'; try (exfalso; exact A). destruct A as (A & B), L as (L1 & L2).
    exact (while_sim _ _ _ _ _ _ _ _ Hc Hb A B L1 L2 R).
  - intros ne c Hc b Hb s' env lab r r' A L R. destruct s'; try (exfalso; exact A). destruct A as (A & B), L as (L1 & L2).
    exact (while_sim _ _ _ _ _ _ _ _ Hc Hb A B L1 L2 R).
  - intros b Hb c Hc s' env lab r r' A L R. destruct s'; try (exfalso; exact A). destruct A as (A & B), L as (L1 & L2).
    apply (sim_loop (grel (vrel env) (SL lab (outside b (gotos b)))) n).
    eapply sim_bind; [exact (proj1 (Hb _ env _ true A L1) r r' R)|]. intros u v Q.
    pose proof (after_out _ env _ lab _ _ _ _ r r' R Q) as Q'.
    destruct u as [r1| |vs|l], v as [r1'| |vs'|l']; try contradiction; try (apply sim_ret; exact Q').
    cbn [grel NR] in Q. bnd (proj1 (Hc _ _ _ _ B L2 (Q eq_refl))). apply sim_ret. change (test m2 a) with (test m a). now destruct (test m a).
  - intros x a Ha z Hz step Hst b Hb s' env lab r r' A L R. destruct s'; try (exfalso; exact A). destruct A as (A1 & A2 & A3 & A4 & A5), L as (L1 & L2 & L3 & L4).
    bnd (proj1 (Ha _ _ _ _ A1 L1 R)). bnd (proj1 (Hz _ _ _ _ A2 L2 R)). bnd (proj1 (Hst _ _ _ _ A3 L3 R)).
    eapply (sim_for_num _ _ (vrel env)); [exact R|]. intros v. eapply sim_bind; [exact (sim_declare _ _ [v] _ _ _ A4 R)|]. intros q q' Q.
    eapply sim_weak; [|exact (body_sim _ _ _ lab _ _ Hb A5 L4 Q)]. intros ? ?. apply loop_out.
  - intros xs es Hes b Hb s' env lab r r' A L R. destruct s'; try (exfalso; exact A). destruct A as (A1 & A4 & A5), L as (L1 & L4).
    bnd (proj1 (Hes _ _ _ _ A1 L1 R)).
    eapply (sim_for_in _ _ (vrel env)); [exact R|]. intros v. eapply sim_bind; [exact (sim_declare _ _ v _ _ _ A4 R)|]. intros q q' Q.
    eapply sim_weak; [|exact (body_sim _ _ _ lab _ _ Hb A5 L4 Q)]. intros ? ?. apply loop_out.
  - intros s' env lab r r' A L R. destruct s'; try (exfalso; exact A). now apply sim_ret.
  - intros es Hes s' env lab r r' A L R. destruct s'; try (exfalso; exact A). bnd (proj1 (Hes _ _ _ _ A L R)). now apply sim_ret.
  - intros xs es Hes s' env lab r r' A L R. destruct s'; try (exfalso; exact A). destruct A as (A & _ & B).
    bnd (proj1 (Hes _ _ _ _ A L R)). eapply sim_bind; [exact (sim_declare _ _ a _ _ _ B R)|]. intros q q' Q. now apply next_ret.
  - intros x ps b Hb s' env lab r r' A L R. destruct s'; try (exfalso; exact A). destruct A as (A1 & A2 & A3).
    apply locals_cons in A1. destruct A1 as (N & N' & _). bnd (sim_new (m_nil m)).
    assert (R2 : vrel ((x, x0) :: env) ((x, a) :: r) ((x0, a) :: r')) by now constructor.
    bnd (sim_fun _ _ (fun_rel _ _ _ _ _ _ _ R2 A2 A3 L)). bnd (sim_set a a0). now apply next_ret.
  - intros x path meth ps b Hb s' env lab r r' A L R. destruct s'; try (exfalso; exact A). destruct A as (A1 & A2 & A3 & A4 & A5).
    assert (P : Forall2 Kk (path ++ match meth with Some k => [k] | None => [] end) (path0 ++ match meth0 with Some k => [k] | None => [] end)).
    { apply Forall2_app; [exact A2|]. destruct meth, meth0; try contradiction; [now constructor|constructor]. }
    eapply sim_bind; [exact (sim_path _ _ _ _ _ _ _ R A1 P)|]. intros p p' Hp.
    bnd (sim_fun _ _ (fun_rel _ _ _ _ _ _ _ R A4 A5 L)). bnd (sim_store _ _ a Hp). now apply next_ret.
  - intros l s' env lab r r' A L R. destruct s'; try (exfalso; exact A). apply sim_ret. split; [exact A|now left].
  - intros l s' env lab r r' A L R. destruct s'; try (exfalso; exact A). now apply next_ret.
  - intros ts Hts es Hes s' env lab r r' A L R. destruct s'; try (exfalso; exact A). destruct A as (A & B), L as (L1 & L2).
    eapply sim_bind; [exact (proj2 (Hts _ _ _ _ A L1 R))|]. intros p p' Hp. bnd (proj1 (Hes _ _ _ _ B L2 R)).
    bnd (sim_stores _ _ a Hp). now apply next_ret.
  - intros t Ht op e He s' env lab r r' A L R. destruct s'; try (exfalso; exact A). destruct A as (A & <- & B), L as (L1 & L2).
    change (sim (grel (vrel env) (SL lab []))
      match compound op with None => never | Some op => bind (r_place m c1 dots t r) (fun p => bind (fetch m c1 p) (fun v => bind (ex1 e r) (fun ws => bind (do1 m c1 (ABin op) [v; first m ws]) (fun v => bind (store m c1 p v) (fun _ => ret (Next r)))))) end
      match compound op with None => never | Some op => bind (r_place m2 c2 dots target r') (fun p => bind (fetch m2 c2 p) (fun v => bind (ex2 e0 r') (fun ws => bind (do1 m2 c2 (ABin op) [v; first m2 ws]) (fun v => bind (store m2 c2 p v) (fun _ => ret (Next r')))))) end).
    destruct (compound op) as [o|]; [|apply sim_never].
    eapply sim_bind; [exact (proj2 (Ht _ _ _ _ A L1 R))|]. intros p p' Hp. bnd (sim_fetch _ _ Hp). bnd (proj1 (He _ _ _ _ B L2 R)).
    bnd (sim_do1 (ABin o) [a; first m a0]). bnd (sim_store _ _ a1 Hp). now apply next_ret.
  - intros es Hes s' env lab r r' A L R. destruct s'; try (exfalso; exact A). destruct A as (A & B).
    bnd (sim_read _ _ _ _ _ R A). bnd (proj1 (Hes _ _ _ _ B L R)). bnd (sim_apply a a0). now apply next_ret.
  - intros e He s' env lab r r' A L R. destruct s'; try (exfalso; exact A). bnd (proj1 (He _ _ _ _ A L R)). now apply next_ret.
  - (* BNil *) intros b' env lab until A L. destruct b'; try (exfalso; exact A). split.
    + intros r r' R. apply sim_ret. intros _. exact R.
    + intros r r' l l' over Sl _ _. apply sim_ret. split; [exact Sl|]. split; [now left|intros []].
  - intros s Hs b Hb. now apply blk_sim.
  - intros w c Hc b Hb e He i' env lab r r' A L R. destruct i'; try (exfalso; exact A). destruct A as (A & B & C), L as (L1 & L2 & L3).
    exact (if_sim _ _ _ _ _ _ _ _ _ _ Hc Hb He A B C L1 L2 L3 R).
  - intros w c Hc b Hb e He i' env lab r r' A L R. destruct i'; try (exfalso; exact A). destruct A as (A & B & C), L as (L1 & L2 & L3).
    exact (if_sim _ _ _ _ _ _ _ _ _ _ Hc Hb He A B C L1 L2 L3 R).
  - intros e' env lab r r' A L R. destruct e'; try (exfalso; exact A). now apply next_ret.
  - intros b Hb e' env lab r r' A L R. destruct e'; try (exfalso; exact A). exact (do_sim _ _ _ _ _ _ Hb A L R).
  - intros i Hi e' env lab r r' A L R. destruct e'; try (exfalso; exact A). exact (Hi _ _ _ _ _ A L R).
Qed.
End Body.

(** ** Programs *)
Lemma values_rel N L (u v : sig) : grel N L u v -> values u = values v.
Proof. destruct u, v; cbn; try contradiction; auto. Qed.
Lemma sim_call : forall n f args, sim eq (call m n f args) (call m2 n f args).
Proof.
  induction n as [|n IH]; intros f args; [apply sim_never|]. intros s s' S. cbn [call]. pose proof S as (_ & _ & F).
  assert (Q : match nth_error (funs s) f, nth_error (funs s') f with Some c, Some c' => crel c c' | None, None => True | _, _ => False end).
  { clear - F. revert f. induction F; intros [|f]; cbn [nth_error]; try exact I; [assumption|apply IHF]. }
  destruct (nth_error (funs s) f) as [[[ps b] r]|], (nth_error (funs s') f) as [[[ps' b'] r']|]; try contradiction; [|now split].
  destruct Q as (env & R & (P & P') & A & L). revert s s' S F.
  assert (X : sim eq
    (bind (declare m (names_of ps) args r) (fun r => bind (r_blk m (call m n) n (skipn (length (names_of ps)) args) b None r) (fun u => ret (values u))))
    (bind (declare m2 (names_of ps') args r') (fun r => bind (r_blk m2 (call m2 n) n (skipn (length (names_of ps')) args) b' None r) (fun u => ret (values u))))).
  { eapply sim_bind; [exact (sim_declare _ _ args _ _ _ P' R)|]. intros q q' Q. destruct P' as (<- & _).
    destruct (alpha_all _ _ IH n (skipn (length (names_of ps)) args)) as (_ & _ & _ & _ & HB & _).
    eapply sim_bind; [exact (proj1 (HB b b' _ _ false A L) q q' Q)|]. intros u v E. apply sim_ret. eapply values_rel; eassumption. }
  intros s s' S _. exact (X s s' S).
Qed.
Theorem alpha_run2 b b' n me : alpha_blk Gg Kk [] (frame b b') b b' -> legal false b -> run m2 n b' me = run m n b me.
Proof.
  intros A L. destruct (alpha_all _ _ (sim_call n) n []) as (_ & _ & _ & _ & HB & _).
  pose proof (proj1 (HB b b' _ _ false A L) [] [] vrel_nil (St [] [] me) (St [] [] me)) as H.
  unfold run. unfold orel in H.
  assert (S : srel (St [] [] me) (St [] [] me)) by (split; [easy|split; [easy|constructor]]). specialize (H S).
  destruct (r_blk m _ _ _ b _ _ _) as [u s|v s|], (r_blk m2 _ _ _ b' _ _ _) as [u' s'|v' s'|]; try contradiction; [| |easy].
  - destruct H as (H & _ & -> & _). now rewrite (values_rel _ _ _ _ H).
  - destruct H as (-> & _ & -> & _). reflexivity.
Qed.
End Alpha.

Theorem alpha_run V Mem (m : machine V Mem) g k b b' n me : alpha_blk (Gg g) (Kk k) [] (frame b b') b b' -> legal false b -> run (renamed g k m) n b' me = run m n b me.
Proof. intros A L. exact (alpha_run2 m g k (fun a => m_do m (old_ask g a)) (fun a vs me => eq_refl) b b' n me A L). Qed.
Theorem alpha_same V Mem (m : machine V Mem) b b' n me : alpha_blk (Gg (fun x => x)) (Kk (fun x => x)) [] (frame b b') b b' -> legal false b -> run m n b' me = run m n b me.
Proof.
  intros A L. destruct m as [a1 a2 a3 a4 a5 a6 a7 a8].
  refine (alpha_run2 (Build_machine _ _ a1 a2 a3 a4 a5 a6 a7 a8) (fun x => x) (fun x => x) a8 _ b b' n me A L). intros a vs me'. now destruct a.
Qed.
