(** Programs whose functions are rewritten, step by step with the original. *)
From Coq Require Import String List ZArith Bool Lia.
From Verif Require Import M_Base M_Fold M_Token M_Expr M_Stmt S_Run L_Util.
Import ListNotations.

Section Sim.
Context {V Mem : Type} (m : machine V Mem) (tr : blk -> blk).
Notation M := (M V Mem).
Notation state := (state V Mem).
Notation sig := (sig V).

(** The same state with other bodies in the functions. *)
Definition fn (c : closure) : closure := let '(ps, b, r) := c in (ps, tr b, r).
Definition T (s : state) : state := St (boxes s) (map fn (funs s)) (mem s).
Definition om {A} (o : out V Mem A) : out V Mem A :=
  match o with Gives a s => Gives a (T s) | Raises v s => Raises v (T s) | Unfinished => Unfinished end.
Definition sim {A} (x y : M A) : Prop := forall s, y (T s) = om (x s).

Lemma sim_ret {A} (a : A) : sim (ret a) (ret a).
Proof. intros s. reflexivity. Qed.
Lemma sim_bind {A B} (x y : M A) (f g : A -> M B) : sim x y -> (forall a, sim (f a) (g a)) -> sim (bind x f) (bind y g).
Proof. intros H K s. unfold bind. rewrite (H s). destruct (x s); cbn; auto. apply K. Qed.
Lemma sim_never {A} : sim (@never V Mem A) never.
Proof. intros s. reflexivity. Qed.
Lemma sim_if {A} (b : bool) (x y x' y' : M A) : sim x x' -> sim y y' -> sim (if b then x else y) (if b then x' else y').
Proof. destruct b; auto. Qed.

Lemma sim_get a : sim (get_box m a) (get_box m a). Proof. intros s. reflexivity. Qed.
Lemma sim_set a v : sim (set_box a v) (set_box a v). Proof. intros s. reflexivity. Qed.
Lemma sim_new v : sim (new_box v) (new_box v). Proof. intros s. reflexivity. Qed.
Lemma sim_fun ps b r : sim (new_fun m (ps, b, r)) (new_fun m (ps, tr b, r)).
Proof. intros s. unfold new_fun, om, T. cbn [boxes funs mem]. rewrite map_app, map_length. reflexivity. Qed.
Lemma sim_declare : forall xs vs r, sim (declare m xs vs r) (declare m xs vs r).
Proof. induction xs; intros; cbn [declare]; [apply sim_ret|]. apply sim_bind; [apply sim_new|]. intros. apply IHxs. Qed.

Context (c1 c2 : nat -> list V -> M (list V)) (CALL : forall f args, sim (c1 f args) (c2 f args)).

Lemma follow_sim : forall t s, follow c2 t (T s) = om (follow c1 t s).
Proof.
  induction t as [vs me|v me|f args me k IH]; intros s; cbn [follow]; try reflexivity.
  change (St (boxes (T s)) (funs (T s)) me) with (T (St (boxes s) (funs s) me)).
  rewrite (CALL f args _). destruct (c1 f args _) as [vs s'|v s'|]; cbn [om]; [| |reflexivity].
  - change (mem (T s')) with (mem s'). apply IH.
  - change (mem (T s')) with (mem s'). apply IH.
Qed.
Lemma sim_do a vs : sim (do_ m c1 a vs) (do_ m c2 a vs).
Proof. intros s. unfold do_. change (mem (T s)) with (mem s). apply follow_sim. Qed.
Lemma sim_do1 a vs : sim (do1 m c1 a vs) (do1 m c2 a vs).
Proof. apply sim_bind; [apply sim_do|]. intros. apply sim_ret. Qed.
Lemma sim_apply f args : sim (apply m c1 f args) (apply m c2 f args).
Proof. unfold apply. destruct (m_is_fun m f); [apply CALL|apply sim_do]. Qed.
Ltac sims := repeat first
  [ apply sim_ret | apply sim_never | apply sim_get | apply sim_set | apply sim_new | apply sim_do1 | apply sim_do | apply sim_apply
  | apply sim_fun | apply sim_declare | assumption
  | apply sim_bind; [|intros ?] | apply sim_if ].
Lemma sim_read r x : sim (read m c1 r x) (read m c2 r x).
Proof. unfold read. destruct (find x r); [apply sim_get|]. destruct (find _ r); sims. Qed.
Lemma sim_place_of r x : sim (place_of m r x) (place_of m r x).
Proof. unfold place_of. destruct (find x r); [apply sim_ret|]. destruct (find _ r); sims. Qed.
Lemma sim_fetch p : sim (fetch m c1 p) (fetch m c2 p).
Proof. destruct p; cbn [fetch]; sims. Qed.
Lemma sim_store p v : sim (store m c1 p v) (store m c2 p v).
Proof. destruct p; cbn [store]; sims. Qed.
Lemma sim_stores : forall ps vs, sim (stores m c1 ps vs) (stores m c2 ps vs).
Proof. induction ps; intros; cbn [stores]; sims; [apply IHps|apply sim_store]. Qed.
Lemma sim_loop {A} : forall n (x y : M (option A)), sim x y -> sim (loop n x) (loop n y).
Proof. induction n; intros x y H; cbn [loop]; sims. destruct a; sims. apply IHn. assumption. Qed.
Lemma sim_for_num : forall n r i z step f g, (forall v, sim (f v) (g v)) ->
  sim (for_num m c1 n r i z step f) (for_num m c2 n r i z step g).
Proof. induction n; intros r i z step f g H; cbn [for_num]; sims; [apply H|]. destruct (after r _); sims. apply IHn. assumption. Qed.
Lemma sim_for_in : forall n r f s c b1 b2, (forall v, sim (b1 v) (b2 v)) ->
  sim (for_in m c1 n r f s c b1) (for_in m c2 n r f s c b2).
Proof. induction n; intros r f s c b1 b2 H; cbn [for_in]; sims; [apply H|]. destruct (after r _); sims. apply IHn. assumption. Qed.
Lemma sim_labelled n l x y : sim x y -> sim (labelled n l x) (labelled n l y).
Proof. intros H. apply sim_loop. sims. Qed.
Lemma sim_items : forall vs t n, sim (items m c1 t n vs) (items m c2 t n vs).
Proof. induction vs; intros; cbn [items]; sims. apply IHvs. Qed.
Lemma sim_walk : forall ks v k, sim (walk m c1 v k ks) (walk m c2 v k ks).
Proof. induction ks; intros; cbn [walk]; sims. apply IHks. Qed.
Lemma sim_path r x ks : sim (path_of m c1 r x ks) (path_of m c2 r x ks).
Proof. destruct ks; cbn [path_of]; [apply sim_place_of|]. sims; [apply sim_read|apply sim_walk]. Qed.

End Sim.

(** Which body a function has is all that matters of it. *)
Section Runs.
Context {V Mem : Type} (m : machine V Mem) (tr : blk -> blk).
Context (SIM : forall c1 c2, (forall f args, sim tr (c1 f args) (c2 f args)) -> forall n dots b skip r,
  sim tr (r_blk m c1 n dots b skip r) (r_blk m c2 n dots (tr b) skip r)).
Lemma sim_call : forall n f args, sim tr (call m n f args) (call m n f args).
Proof.
  induction n as [|n IH]; intros f args; [apply sim_never|]. intros s. cbn [call]. unfold T at 1. cbn [funs].
  rewrite nth_error_map. destruct (nth_error (funs s) f) as [[[ps b] r]|]; [|reflexivity]. cbn [option_map fn].
  revert s. change (sim tr (bind (declare m (names_of ps) args r) (fun r => bind (r_blk m (call m n) n (skipn (length (names_of ps)) args) b None r) (fun g => ret (values g))))
    (bind (declare m (names_of ps) args r) (fun r => bind (r_blk m (call m n) n (skipn (length (names_of ps)) args) (tr b) None r) (fun g => ret (values g))))).
  apply sim_bind; [apply sim_declare|]. intros r'. apply sim_bind; [|intros g; apply sim_ret]. now apply SIM.
Qed.
Theorem sim_run b n me : run m n (tr b) me = run m n b me.
Proof.
  pose proof (SIM (call m n) (call m n) (sim_call n) n [] b None [] (St [] [] me)) as H.
  unfold run. change (St [] [] me) with (T (V := V) tr (St [] [] me)) at 1. rewrite H.
  destruct (r_blk m (call m n) n [] b None [] (St [] [] me)); reflexivity.
Qed.
End Runs.
