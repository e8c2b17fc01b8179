(** Resolving branches keeps what programs do. *)
From Coq Require Import String List ZArith Bool Lia.
From Verif Require Import M_Base M_Fold M_Token M_Expr M_Stmt M_Branch S_Run S_Branch L_Util L_Stmt L_Sim.
Import ListNotations.

Section B.
Context {V Mem : Type} (m : machine V Mem) (known : ex -> option bool) (RIGHT : right m known).
Notation M := (M V Mem).
Notation state := (state V Mem).
Notation sig := (sig V).
Notation sim := (sim (b_blk known)).
Context (c1 c2 : nat -> list V -> M (list V)) (CALL : forall f args, sim (c1 f args) (c2 f args)).
Ltac sims := repeat first
  [ apply sim_ret | apply sim_never | apply sim_get | apply sim_set | apply sim_new | apply sim_do1 | apply sim_do | apply sim_apply
  | apply sim_fun | apply sim_declare | assumption
  | apply sim_bind; [|intros ?] | apply sim_if ].
Context (n : nat) (dots : list V).
Notation ex1 := (r_ex m c1 dots). Notation ex2 := (r_ex m c2 dots).
Notation exs1 := (r_exs m c1 dots). Notation exs2 := (r_exs m c2 dots).
Notation st1 := (r_st m c1 n dots). Notation st2 := (r_st m c2 n dots).
Notation blk1 := (r_blk m c1 n dots). Notation blk2 := (r_blk m c2 n dots).

(** How a block goes on behind a statement. *)
Definition cont (R : blk) (r : vars) (g : sig) : M sig :=
  match g with Next r' => blk2 R None r' | Goto l => blk2 R (Some l) r | g => ret g end.

Definition not_label (s : st) : Prop := match s with SLabel _ => False | _ => True end.
Lemma blk1_cons s b skip r : not_label s ->
  blk1 (BCons s b) skip r = match skip with
    | Some _ => blk1 b skip r
    | None => bind (st1 s r) (fun g => match g with Next r' => blk1 b None r' | Goto l => blk1 b (Some l) r | g => ret g end) end.
Proof. destruct s; cbn [not_label]; try reflexivity. intros []. Qed.
Lemma blk2_cons s b skip r : not_label s ->
  blk2 (BCons s b) skip r = match skip with Some _ => blk2 b skip r | None => bind (st2 s r) (cont b r) end.
Proof. destruct s; cbn [not_label]; try reflexivity. intros []. Qed.

(** A statement that needs no "do" leaves the locals as they are. *)
Lemma loop_inv {A} (P : A -> Prop) : forall k (body : M (option A)),
  (forall s a s', body s = Gives (Some a) s' -> P a) -> forall s a s', loop k body s = Gives a s' -> P a.
Proof.
  induction k; intros body H s a s' E; cbn [loop] in E; [discriminate|]. unfold bind in E.
  destruct (body s) as [[b|] s1| |] eqn:B; try discriminate.
  - unfold ret in E. injection E as <- <-. exact (H _ _ _ B).
  - exact (IHk body H _ _ _ E).
Qed.
Definition stays (r : vars) (g : sig) : Prop := match g with Next r' => r' = r | _ => True end.
Lemma leave_stays r g : stays r (leave r g). Proof. destruct g; cbn; auto. Qed.
Lemma after_stays r g g' : after r g = Some g' -> stays r g'.
Proof. destruct g; cbn; intros E; try discriminate; injection E as <-; cbn; auto. Qed.
Lemma bind_inv {A B} (x : M A) (f : A -> M B) s b s' : bind x f s = Gives b s' -> exists a s1, x s = Gives a s1 /\ f a s1 = Gives b s'.
Proof. unfold bind. destruct (x s) as [a s1| |]; try discriminate. intros E. exists a, s1. auto. Qed.
Ltac inv E := let a := fresh "a" in let s1 := fresh "s1" in apply bind_inv in E; destruct E as (a & s1 & _ & E).
Lemma for_num_stays : forall k r i z step body s g s', for_num m c2 k r i z step body s = Gives g s' -> stays r g.
Proof.
  induction k; intros r i z step body s g s' E; cbn [for_num] in E; [discriminate|]. inv E. destruct (m_true m a).
  - inv E. destruct (after r a0) eqn:F.
    + unfold ret in E. injection E as <- <-. exact (after_stays _ _ _ F).
    + inv E. exact (IHk _ _ _ _ _ _ _ _ E).
  - unfold ret in E. injection E as <- <-. reflexivity.
Qed.
Lemma for_in_stays : forall k r f c d body s g s', for_in m c2 k r f c d body s = Gives g s' -> stays r g.
Proof.
  induction k; intros r f c d body s g s' E; cbn [for_in] in E; [discriminate|]. inv E. destruct (m_is_nil m _).
  - unfold ret in E. injection E as <- <-. reflexivity.
  - inv E. destruct (after r a0) eqn:F.
    + unfold ret in E. injection E as <- <-. exact (after_stays _ _ _ F).
    + exact (IHk _ _ _ _ _ _ _ _ E).
Qed.
Lemma if_stays : (forall i r s g s', r_ifs m c2 n dots i r s = Gives g s' -> stays r g) /\
  (forall e r s g s', r_els m c2 n dots e r s = Gives g s' -> stays r g).
Proof.
  assert (H : forall b r s g s', bind (blk2 b None r) (fun g => ret (leave r g)) s = Gives g s' -> stays r g).
  { intros b r s g s' E. inv E. unfold ret in E. injection E as <- <-. apply leave_stays. }
  assert (K : (forall (e : ex), True) /\ (forall (e : exs), True) /\ (forall (e : its), True) /\ (forall (s : st), True) /\ (forall (b : blk), True) /\
    (forall i r s g s', r_ifs m c2 n dots i r s = Gives g s' -> stays r g) /\
    (forall e r s g s', r_els m c2 n dots e r s = Gives g s' -> stays r g)).
  { apply prog_all; auto; intros.
    - cbn [r_ifs] in *. inv H3. destruct (test m a); eauto.
    - cbn [r_ifs] in *. inv H3. destruct (test m a); eauto.
    - cbn [r_els] in *. unfold ret in H0. injection H0 as <- <-. reflexivity.
    - cbn [r_els] in *. eauto. }
  tauto.
Qed.
Lemma st_stays s r x g x' : needs_do s = false -> st2 s r x = Gives g x' -> stays r g.
Proof.
  destruct s; cbn [needs_do]; try discriminate; intros _ E; cbn [r_st] in E;
    try (destruct (compound op); [|discriminate E]);
    try (unfold ret in E; injection E as <- <-; reflexivity);
    try (repeat inv E; unfold ret in E; injection E as <- <-; reflexivity).
  - inv E. unfold ret in E. injection E as <- <-. apply leave_stays.
  - exact (proj1 if_stays _ _ _ _ _ E).
  - refine (loop_inv _ _ _ _ _ _ _ E). intros s1 g1 s2 F. inv F. destruct (test m a).
    + inv F. unfold ret in F. injection F as F _. exact (after_stays _ _ _ F).
    + unfold ret in F. injection F as <- _. reflexivity.
  - refine (loop_inv _ _ _ _ _ _ _ E). intros s1 g1 s2 F. inv F. destruct (test m a).
    + inv F. unfold ret in F. injection F as F _. exact (after_stays _ _ _ F).
    + unfold ret in F. injection F as <- _. reflexivity.
  - refine (loop_inv _ _ _ _ _ _ _ E). intros s1 g1 s2 F. inv F. destruct a.
    + inv F. unfold ret in F. injection F as F _. destruct (test m a); [|discriminate]. injection F as <-. reflexivity.
    + unfold ret in F. injection F as <- _. reflexivity.
    + unfold ret in F. injection F as <- _. reflexivity.
    + unfold ret in F. injection F as <- _. reflexivity.
  - inv E. inv E. inv E. exact (for_num_stays _ _ _ _ _ _ _ _ _ E).
  - inv E. exact (for_in_stays _ _ _ _ _ _ _ _ _ E).
Qed.

(** A block that needs no "do" can stand in the block around. *)
Lemma bind_ext {A B} (x : M A) (f g : A -> M B) s :
  (forall a s', x s = Gives a s' -> f a s' = g a s') -> bind x f s = bind x g s.
Proof. unfold bind. destruct (x s) as [a s'| |]; auto. Qed.
Lemma bind_bind {A B C} (x : M A) (f : A -> M B) (g : B -> M C) s : bind (bind x f) g s = bind x (fun a => bind (f a) g) s.
Proof. unfold bind. destruct (x s) as [a s'| |]; auto. Qed.
Lemma flat_skip : forall b R l r, do_needed b = false -> blk2 (app_blk b R) (Some l) r = blk2 R (Some l) r.
Proof.
  induction b as [|s b IH]; intros R l r H; [reflexivity|]. cbn [do_needed] in H. apply orb_false_iff in H. destruct H as [Hs Hb].
  cbn [app_blk]. rewrite blk2_cons; [apply IH, Hb|]. destruct s; try exact I. discriminate.
Qed.
Lemma flat_none : forall b l r, do_needed b = false -> blk2 b (Some l) r = ret (Goto l).
Proof.
  induction b as [|s b IH]; intros l r H; [reflexivity|]. cbn [do_needed] in H. apply orb_false_iff in H. destruct H as [Hs Hb].
  rewrite blk2_cons; [apply IH, Hb|]. destruct s; try exact I. discriminate.
Qed.
Lemma flat_run : forall b R r s, do_needed b = false ->
  blk2 (app_blk b R) None r s = bind (blk2 b None r) (fun g => cont R r (leave r g)) s.
Proof.
  induction b as [|x b IH]; intros R r s H; [reflexivity|]. cbn [do_needed] in H. apply orb_false_iff in H. destruct H as [Hs Hb].
  assert (N : not_label x) by (destruct x; try exact I; discriminate).
  cbn [app_blk]. rewrite !blk2_cons by exact N. rewrite bind_bind. apply bind_ext. intros g s' E.
  pose proof (st_stays _ _ _ _ _ Hs E) as K. destruct g; cbn [cont]; cbn [stays] in K; try reflexivity.
  - subst. apply IH, Hb.
  - rewrite (flat_skip b R l r Hb), (flat_none b l r Hb). reflexivity.
Qed.
Lemma in_place_skip b R l r : blk2 (app_blk (in_place b) R) (Some l) r = blk2 R (Some l) r.
Proof. unfold in_place. destruct (do_needed b) eqn:D; [reflexivity|]. apply flat_skip, D. Qed.
Lemma in_place_run b R r s :
  blk2 (app_blk (in_place b) R) None r s = bind (blk2 b None r) (fun g => cont R r (leave r g)) s.
Proof.
  unfold in_place. destruct (do_needed b) eqn:D; [|apply flat_run, D].
  cbn [app_blk]. rewrite blk2_cons by exact I. cbn [r_st]. rewrite bind_bind. reflexivity.
Qed.

Definition R_ex (e : ex) : Prop := (forall r, sim (ex1 e r) (ex2 (b_ex known e) r)) /\
  forall r, sim (r_place m c1 dots e r) (r_place m c2 dots (b_ex known e) r).
Definition R_exs (es : exs) : Prop := (forall r, sim (exs1 es r) (exs2 (b_exs known es) r)) /\
  forall r, sim (r_places m c1 dots es r) (r_places m c2 dots (b_exs known es) r).
Definition R_its (i : its) : Prop := forall r t k, sim (r_its m c1 dots i r t k) (r_its m c2 dots (b_its known i) r t k).
Definition R_st (s : st) : Prop := forall R R', (forall skip r, sim (blk1 R skip r) (blk2 R' skip r)) ->
  forall skip r, sim (blk1 (BCons s R) skip r) (blk2 (app_blk (b_st known s) R') skip r).
Definition R_blk (b : blk) : Prop := forall skip r, sim (blk1 b skip r) (blk2 (b_blk known b) skip r).
Definition block2 (b : blk) (r : vars) : M sig := bind (blk2 b None r) (fun g => ret (leave r g)).
Definition R_ifs (i : ifs) : Prop := forall r,
  match b_ifs known i with
  | Keep i' => sim (r_ifs m c1 n dots i r) (r_ifs m c2 n dots i' r)
  | Take b => sim (r_ifs m c1 n dots i r) (block2 b r)
  | Drop => sim (r_ifs m c1 n dots i r) (ret (Next r))
  end.
Definition R_els (e : els) : Prop := forall r, sim (r_els m c1 n dots e r) (r_els m c2 n dots (b_els known e) r).

Lemma sim_ext {A} (x y z : M A) : (forall s, y s = z s) -> sim x z -> sim x y.
Proof. intros E H s. rewrite E. apply H. Qed.
(** Most statements stay one statement. *)
Lemma one_st s s' : not_label s -> not_label s' -> b_st known s = BCons s' BNil ->
  (forall r, sim (st1 s r) (st2 s' r)) -> R_st s.
Proof.
  intros N N' E H R R' K skip r. rewrite E. cbn [app_blk]. rewrite blk1_cons, blk2_cons by assumption.
  destruct skip; [apply K|]. apply sim_bind; [apply H|]. intros g. destruct g; cbn [cont]; auto using sim_ret.
Qed.
(** What is known of a condition. *)
Lemma known_run c v : R_ex c -> known (b_ex known c) = Some v -> forall s r, exists vs s', ex1 c r s = Gives vs s' /\ T (b_blk known) s' = T (b_blk known) s /\ test m vs = v.
Proof.
  intros [H _] K s r. destruct (RIGHT _ _ K c2 dots r (T (b_blk known) s)) as (vs & E & B). rewrite (H r s) in E.
  destruct (ex1 c r s) as [ws s'|w s'|]; cbn [om] in E; try discriminate. injection E as -> E1 E2 E3. exists vs, s'. split; [reflexivity|]. split; [|exact B].
  unfold T. rewrite E1, E2, E3. reflexivity.
Qed.
Lemma known_if {A} c v : R_ex c -> known (b_ex known c) = Some v -> forall r (x y : M A) z, sim (if v then x else y) z ->
  sim (bind (ex1 c r) (fun vs => if test m vs then x else y)) z.
Proof.
  intros C K r x y z H s. destruct (known_run c v C K s r) as (vs & s' & E & E' & B). unfold bind. rewrite E, B, <- E'. apply H.
Qed.
Lemma branch_sim c b e r i : R_ex c -> R_blk b -> R_els e ->
  (forall r, sim (bind (ex1 c r) (fun vs => if test m vs then bind (blk1 b None r) (fun g => ret (leave r g)) else r_els m c1 n dots e r)) (r_ifs m c2 n dots i r)) ->
  match branch_of known i (b_ex known c) (b_blk known b) (b_els known e) with
  | Keep i' => sim (bind (ex1 c r) (fun vs => if test m vs then bind (blk1 b None r) (fun g => ret (leave r g)) else r_els m c1 n dots e r)) (r_ifs m c2 n dots i' r)
  | Take b' => sim (bind (ex1 c r) (fun vs => if test m vs then bind (blk1 b None r) (fun g => ret (leave r g)) else r_els m c1 n dots e r)) (block2 b' r)
  | Drop => sim (bind (ex1 c r) (fun vs => if test m vs then bind (blk1 b None r) (fun g => ret (leave r g)) else r_els m c1 n dots e r)) (ret (Next r))
  end.
Proof.
  intros C B E K. unfold branch_of. destruct (known (b_ex known c)) as [[]|] eqn:KC; [| |apply K].
  - apply (known_if _ true C KC). cbn iota. apply sim_bind; [apply B|]. intros g. apply sim_ret.
  - specialize (E r). destruct (b_els known e); apply (known_if _ false C KC); cbn iota; exact E.
Qed.
Lemma if_sim c b e r b' c' e' : (forall r, sim (ex1 c r) (ex2 c' r)) -> (forall skip r, sim (blk1 b skip r) (blk2 b' skip r)) -> (forall r, sim (r_els m c1 n dots e r) (r_els m c2 n dots e' r)) ->
  sim (bind (ex1 c r) (fun vs => if test m vs then bind (blk1 b None r) (fun g => ret (leave r g)) else r_els m c1 n dots e r))
      (bind (ex2 c' r) (fun vs => if test m vs then bind (blk2 b' None r) (fun g => ret (leave r g)) else r_els m c2 n dots e' r)).
Proof. intros C B E. sims; auto. Qed.

Ltac go := repeat first
  [ apply sim_ret | apply sim_never | apply sim_get | apply sim_set | apply sim_new | apply sim_do1 | apply sim_do | apply sim_apply
  | apply sim_fun | apply sim_declare | apply sim_read | apply sim_place_of | apply sim_fetch | apply sim_store | apply sim_stores
  | apply sim_items | apply sim_path | apply sim_labelled
  | assumption
  | match goal with H : forall r, sim _ _ |- _ => apply H | H : forall s r, sim _ _ |- _ => apply H | H : forall r t k, sim _ _ |- _ => apply H end
  | apply sim_loop | apply sim_for_num; intros ? | apply sim_for_in; intros ?
  | apply sim_bind; [|intros ?] | apply sim_if ].
Theorem all_sim : (forall e, R_ex e) /\ (forall es, R_exs es) /\ (forall i, R_its i) /\ (forall s, R_st s) /\ (forall b, R_blk b) /\
  (forall i, R_ifs i) /\ (forall e, R_els e).
Proof.
  apply prog_all.
  all: try (intros; repeat match goal with H : R_ex _ |- _ => destruct H | H : R_exs _ |- _ => destruct H end;
    unfold R_its, R_blk in *; split; intros; cbn [r_ex r_place r_places b_ex b_exs]; go; fail).
  all: try (intros; repeat match goal with H : R_ex _ |- _ => destruct H | H : R_exs _ |- _ => destruct H end;
    unfold R_blk in *; eapply one_st; [exact I| |reflexivity|]; [exact I|]; intros r; cbn [r_st];
    try match goal with |- sim (match compound ?o with _ => _ end) _ => destruct (compound o) end; go; try (match goal with |- sim (match ?g with _ => _ end) _ => destruct g end; go); fail).
  - intros e [He Hp] es [H K]. split; intros r.
    + destruct es; [exact (He r)|]. change (exs1 (XCons e (XCons e0 es)) r) with (bind (ex1 e r) (fun vs => bind (exs1 (XCons e0 es) r) (fun ws => ret (first m vs :: ws)))).
      change (exs2 (b_exs known (XCons e (XCons e0 es))) r) with (bind (ex2 (b_ex known e) r) (fun vs => bind (exs2 (b_exs known (XCons e0 es)) r) (fun ws => ret (first m vs :: ws)))).
      go.
    + cbn [r_places b_exs]. go.
  - intros k [Hk _] v [Hv _] sep i H r t j. cbn [r_its b_its]. unfold R_its in H. go.
  - intros key v [Hv _] sep i H r t j. cbn [r_its b_its]. unfold R_its in H. go.
  - intros e [He _] sep i H r t j. unfold R_its in H.
    destruct i; cbn [b_its]; [cbn [r_its]; go| | |].
    all: match goal with |- sim (r_its _ _ _ (IItem ?e ?sep ?i) _ _ _) (r_its _ _ _ (IItem ?e' _ ?i') _ _ _) =>
      change (sim (bind (ex1 e r) (fun vs => bind (do_ m c1 (AItem j) [t; first m vs]) (fun _ => r_its m c1 dots i r t (S j))))
        (bind (ex2 e' r) (fun vs => bind (do_ m c2 (AItem j) [t; first m vs]) (fun _ => r_its m c2 dots i' r t (S j))))) end.
    all: apply sim_bind; [apply He|]; intros vs; apply sim_bind; [apply sim_do; exact CALL|]; intros _; apply H.
  - intros i H R R' K skip r. change (b_st known (SIf i)) with (match b_ifs known i with Keep i => BCons (SIf i) BNil | Take b => in_place b | Drop => BNil end). rewrite blk1_cons by exact I. specialize (H r).
    destruct (b_ifs known i) as [i'|b|].
    + cbn [app_blk]. rewrite blk2_cons by exact I. destruct skip; [apply K|]. cbn [r_st]. apply sim_bind; [exact H|].
      intros g. destruct g; cbn [cont]; auto using sim_ret.
    + destruct skip; [rewrite in_place_skip; apply K|]. cbn [r_st].
      eapply sim_ext; [intros s; apply in_place_run|].
      eapply (sim_ext _ _ (bind (block2 b r) (cont R' r))); [intros s; unfold block2; rewrite bind_bind; reflexivity|].
      apply sim_bind; [exact H|]. intros g. destruct g; cbn [cont]; auto using sim_ret.
    + cbn [app_blk]. destruct skip; [apply K|]. cbn [r_st].
      eapply (sim_ext _ _ (bind (ret (Next r)) (cont R' r))); [reflexivity|]. apply sim_bind; [exact H|].
      intros g. destruct g; cbn [cont]; auto using sim_ret.
  - intros l R R' K skip r. cbn [b_st app_blk r_blk]. destruct skip as [l'|].
    + apply sim_if; [apply sim_labelled, K|]. apply sim_bind; [apply K|]. intros [| | |l1]; try apply sim_ret. apply sim_if; [apply sim_labelled, K|apply sim_ret].
    + apply sim_labelled, K.
  - intros s H b K skip r. cbn [b_blk]. apply H. exact K.
  - intros w c C b B e E r. cbn [b_ifs r_ifs]. apply branch_sim; try assumption.
    intros r'. cbn [r_ifs]. apply if_sim; [apply C|apply B|apply E].
  - intros w c C b B e E r. cbn [b_ifs r_ifs]. apply branch_sim; try assumption.
    intros r'. cbn [r_ifs]. apply if_sim; [apply C|apply B|apply E].
  - intros b B r. cbn [b_els r_els]. sims. apply B.
  - intros i H r. specialize (H r). change (b_els known (EElif i)) with (match b_ifs known i with Keep i => EElif i | Take b => EElse b | Drop => ENone end).
    cbn [r_els]. destruct (b_ifs known i); exact H.
Qed.
End B.

Theorem same_run {V Mem} (m : machine V Mem) known b n me : right m known -> run m n (b_blk known b) me = run m n b me.
Proof.
  intros R. apply sim_run. intros c1 c2 C k dots b' skip r. destruct (all_sim m known R c1 c2 C k dots) as (_ & _ & _ & _ & H & _). apply H.
Qed.

Lemma literal_right {V Mem} (m : machine V Mem) : lua_truth m -> right m literal.
Proof.
  intros L e. induction e; intros b K call dots r s; cbn [literal] in K; try discriminate.
  - exists [m_const m t]. split; [reflexivity|]. cbn [hd]. destruct t as [ty v|]; [|discriminate]. specialize (L ty v).
    destruct (m_true m (m_const m (Tok ty v))) eqn:E.
    + destruct ty; try (injection K as <-; reflexivity). injection K as <-.
      destruct (zeqb_list v (asc "nil")) eqn:A; [apply zeqb_list_true in A; exfalso; destruct L as [_ L]; discriminate L; auto|].
      destruct (zeqb_list v (asc "false")) eqn:B; [apply zeqb_list_true in B; exfalso; destruct L as [_ L]; discriminate L; auto|].
      reflexivity.
    + destruct L as [L _]. destruct (L eq_refl) as [E1 [E2|E2]]; subst; injection K as <-; reflexivity.
  - destruct (IHe b K call dots r s) as (vs & E & B). exists [first m vs]. split; [|exact B]. cbn [r_ex]. unfold bind. rewrite E. reflexivity.
Qed.
