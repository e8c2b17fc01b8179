(** Merging assignments to variables. *)
From Coq Require Import List ZArith Bool PArith Lia.
From Verif Require Import M_Merge S_Merge L_Merge L_Merge2 L_Merge3.
Import ListNotations.
Open Scope Z_scope.

Section Assign.
Context (L : lua).
Definition pv (nv : name * V L) : place L * V L := (PVar (fst nv), snd nv).
Definition nstores (nvs : list (name * V L)) (e : env L) (w : W L) : out (W L) (env L) := stores L (map pv nvs) e w.

Lemma nstores_cons n v nvs e w : nstores ((n, v) :: nvs) e w = bind (store L (PVar n) v e w) (fun e w => nstores nvs e w).
Proof. reflexivity. Qed.
Lemma nstores_app a b : forall e w, nstores (a ++ b) e w = bind (nstores a e w) (fun e w => nstores b e w).
Proof.
  induction a as [|(n, v) a IH]; intros e w; [reflexivity|]. cbn [app]. rewrite !nstores_cons, bind_assoc. apply bind_ext; [reflexivity|]. intros. apply IH.
Qed.
Lemma find_vars e va ts : Forall is_var ts -> forall w, find_places L e va ts w = Done (map (fun x => PVar (v_name x)) (nodes ts)) w.
Proof.
  induction 1 as [|t ts T _ IH]; intros w; [reflexivity|]. destruct t; try destruct T. cbn [find_places find_place bind nodes map]. now rewrite IH.
Qed.
Lemma run_assign_eq cell va s e w : s_local s = false -> Forall is_var (s_targets s) -> run L cell va s e w =
  bind (list_vals L e va (s_sources s) w) (fun vs w =>
    nstores (rev (combine (map v_name (nodes (s_targets s))) (adjust L (length (nodes (s_targets s))) vs))) e w).
Proof.
  intros E T. unfold run. rewrite E, find_vars by exact T. cbn [bind]. apply bind_ext; [reflexivity|]. intros vs w' _. rewrite map_length. unfold nstores. f_equal.
  rewrite map_rev. f_equal. generalize (adjust L (length (nodes (s_targets s))) vs). generalize (nodes (s_targets s)).
  induction l as [|x l IH]; intros [|v l']; try reflexivity. cbn. now rewrite IH.
Qed.

Lemma look_put n m v e : look L m (put L n v e) = if Pos.eqb m n then match look L n e with Some _ => Some (Val v) | None => None end else look L m e.
Proof.
  induction e as [|(k, s) e IH]; [cbn; now destruct (Pos.eqb m n)|]. cbn. destruct (Pos.eqb_spec n k) as [->|N].
  - cbn. destruct (Pos.eqb_spec m k) as [->|]; [reflexivity|reflexivity].
  - cbn. destruct (Pos.eqb_spec m k) as [->|N']; [|exact IH]. destruct (Pos.eqb_spec k n) as [->|]; [contradiction|reflexivity].
Qed.
Lemma put_comm n m u v e : n <> m -> put L n u (put L m v e) = put L m v (put L n u e).
Proof.
  intros N. induction e as [|(k, s) e IH]; [reflexivity|]. cbn. destruct (Pos.eqb_spec m k) as [->|Nm]; destruct (Pos.eqb_spec n k) as [->|Nn]; cbn.
  - contradiction.
  - destruct (Pos.eqb_spec n k); [contradiction|]. now rewrite Pos.eqb_refl.
  - rewrite Pos.eqb_refl. destruct (Pos.eqb_spec m k); [contradiction|reflexivity].
  - destruct (Pos.eqb_spec n k); [contradiction|]. destruct (Pos.eqb_spec m k); [contradiction|]. now rewrite IH.
Qed.

(** * Locals no function shares *)
Definition is_val (e : env L) (n : name) : Prop := exists v, look L n e = Some (Val v).
Lemma put_val n m v e : is_val e m -> is_val (put L n v e) m.
Proof.
  intros (u & E). unfold is_val. rewrite look_put. destruct (Pos.eqb_spec m n) as [->|N]; [rewrite E; eauto|eauto].
Qed.
Lemma put_none n m v e : look L m (put L n v e) = None <-> look L m e = None.
Proof. rewrite look_put. destruct (Pos.eqb_spec m n) as [->|N]; [|easy]. destruct (look L n e); easy. Qed.
Lemma store_val n v e w : is_val e n -> store L (PVar n) v e w = Done (put L n v e) w.
Proof. intros (u & E). cbn. now rewrite E. Qed.
Lemma nstores_vals nvs : forall e w, (forall n, In n (map fst nvs) -> is_val e n) ->
  nstores nvs e w = Done (fold_left (fun e nv => put L (fst nv) (snd nv) e) nvs e) w.
Proof.
  induction nvs as [|(n, v) nvs IH]; intros e w H; [reflexivity|]. rewrite nstores_cons, store_val by (apply H; now left). cbn [bind fold_left fst snd].
  apply IH. intros m I. apply put_val, H. now right.
Qed.
Lemma store_put n v m u e w : m <> n -> is_val e n -> (look L m e = None -> n <> n_env) ->
  store L (PVar m) u (put L n v e) w = match store L (PVar m) u e w with Done e' w' => Done (put L n v e') w' | Fail w' => Fail w' end /\
  forall e' w', store L (PVar m) u e w = Done e' w' -> is_val e' n /\ forall k, look L k e' = None <-> look L k e = None.
Proof.
  intros N (x & Ex) G. cbn. rewrite !look_put. destruct (Pos.eqb_spec m n); [contradiction|]. destruct (look L m e) as [[y|c]|] eqn:Em.
  - split; [now rewrite (put_comm m n u v e N)|]. intros e' w' E. injection E as <- <-. split; [|intros k; apply put_none]. apply put_val. now exists x.
  - split; [reflexivity|]. intros e' w' E. injection E as <- <-. split; [now exists x|easy].
  - destruct (Pos.eqb_spec n_env n) as [F|_]; [exfalso; apply (G eq_refl); symmetry; exact F|]. destruct (look L n_env e) as [s|].
    + destruct (newindex L (read L s w) (str L m) u w) as [[] w1|w1]; cbn; (split; [reflexivity|]); intros e' w' E; [|discriminate]. injection E as <- <-. split; [now exists x|easy].
    + destruct (gset L m u w) as [[] w1|w1]; cbn; (split; [reflexivity|]); intros e' w' E; [|discriminate]. injection E as <- <-. split; [now exists x|easy].
Qed.
Lemma swap_one n v b : forall e w, is_val e n -> (forall m, In m (map fst b) -> m <> n /\ (look L m e = None -> n <> n_env)) ->
  nstores (b ++ [(n, v)]) e w = nstores ((n, v) :: b) e w.
Proof.
  induction b as [|(m, u) b IH]; intros e w Hv D; [reflexivity|]. cbn [app]. rewrite !nstores_cons. rewrite (store_val n) by exact Hv. cbn [bind]. rewrite nstores_cons.
  destruct (D m (or_introl eq_refl)) as (N & G). destruct (store_put n v m u e w N Hv G) as (-> & K). destruct (store L (PVar m) u e w) as [e' w'|w']; cbn [bind]; [|reflexivity].
  destruct (K e' w' eq_refl) as (Hv' & Kn). rewrite IH; [|exact Hv'|].
  - rewrite nstores_cons, store_val by exact Hv'. reflexivity.
  - intros k I. destruct (D k (or_intror I)) as (N' & G'). split; [exact N'|]. intros E. apply G'. now apply Kn.
Qed.
Lemma swap_vals a b : forall e w, (forall n, In n (map fst a) -> is_val e n) ->
  (forall n m, In n (map fst a) -> In m (map fst b) -> m <> n /\ (look L m e = None -> n <> n_env)) ->
  nstores (b ++ a) e w = nstores (a ++ b) e w.
Proof.
  induction a as [|(n, v) a IH]; intros e w Hv D; [now rewrite app_nil_r|].
  change (b ++ (n, v) :: a) with (b ++ [(n, v)] ++ a). rewrite app_assoc, nstores_app, swap_one.
  - cbn [app]. rewrite !nstores_cons, bind_assoc, store_val by (apply Hv; now left). cbn [bind]. rewrite <- nstores_app. apply IH.
    + intros m I. apply put_val, Hv. now right.
    + intros m k I J. destruct (D m k (or_intror I) J) as (A & B). split; [exact A|]. intros E. apply B. now apply put_none in E.
  - apply Hv. now left.
  - intros m I. apply D; [now left|exact I].
Qed.

(** * Plain globals and cells *)
Section Plain.
Context (gv : name -> W L -> V L) (gs : name -> V L -> W L -> W L) (P : plain L gv gs).
Inductive upd := UC (c : C L) (v : V L) | UG (n : name) (v : V L) | UNone.
Definition doit (u : upd) (w : W L) : W L := match u with UC c v => cset L c v w | UG n v => gs n v w | UNone => w end.
Definition untouched (e : env L) (u : upd) (y : vnode) : Prop :=
  match u with UC c _ => look L (v_name y) e <> Some (Cell c) | UG n _ => look L (v_name y) e = None -> v_name y <> n | UNone => True end.

Lemma getvar_upd e u y w : look L n_env e = None -> untouched e u y ->
  exists v, getvar L e (v_name y) w = Done v w /\ getvar L e (v_name y) (doit u w) = Done v (doit u w).
Proof.
  intros Ne U. unfold getvar. rewrite Ne. destruct (look L (v_name y) e) as [[v|c]|] eqn:E; cbn [read].
  - eauto.
  - eexists. split; [reflexivity|]. f_equal. destruct u as [d v|n v|]; cbn in *; [|apply (p_cg _ _ _ P)|reflexivity].
    apply (p_cc _ _ _ P). intros ->. apply U. now rewrite E.
  - rewrite !(p_gget _ _ _ P). eexists. split; [reflexivity|]. f_equal. destruct u as [d v|n v|]; cbn in *; [apply (p_gc _ _ _ P)| |reflexivity]. apply (p_gg _ _ _ P). now apply U.
Qed.

Ltac sp := repeat match goal with
  | H : _ && _ = true |- _ => apply andb_prop in H as (? & ?)
  | H : Forall _ (_ ++ _) |- _ => apply Forall_app in H as (? & ?) end.
Ltac use IH w := let v := fresh "v" in let w' := fresh "w'" in let A := fresh "A" in let B := fresh "B" in
  destruct (IH ltac:(assumption) ltac:(assumption) ltac:(assumption) w) as (v & w' & A & B); try rewrite A; try rewrite B; cbn [bind].
Definition named (kv : option (V L) * V L) : Prop := match fst kv with Some k => exists n, k = str L n | None => True end.
Lemma vals_upd e va u sf am ai ac he : sf = true -> he = false -> look L n_env e = None ->
  (forall x, trivial sf am ai ac he x = true -> no_keys x = true -> Forall (untouched e u) (occ x) ->
     forall w, exists vs w', vals L e va x w = Done vs w' /\ vals L e va x (doit u w) = Done vs (doit u w')) /\
  (forall es, trivial_args sf am ai ac he es = true -> no_keys_args es = true -> Forall (untouched e u) (occ_args es) ->
     forall w, exists vs w', vals_args L e va es w = Done vs w' /\ vals_args L e va es (doit u w) = Done vs (doit u w')) /\
  (forall its, trivial_items sf am ai ac he its = true -> no_keys_items its = true -> Forall (untouched e u) (occ_items its) ->
     forall w, exists kvs w', vals_items L e va its w = Done kvs w' /\ vals_items L e va its (doit u w) = Done kvs (doit u w') /\ Forall named kvs).
Proof.
  intros Es Eh Ne. apply expr_all; cbn [trivial trivial_args trivial_items no_keys no_keys_args no_keys_items occ occ_args occ_items vals vals_args vals_items];
    intros; fold (trivial sf am ai ac he) (trivial_args sf am ai ac he) (trivial_items sf am ai ac he) (vals L e va) (vals_args L e va) (vals_items L e va) in *; subst sf he; rewrite ?andb_false_r in *; cbn [negb andb] in *; try discriminate; sp; try discriminate.
  - eauto.
  - eauto.
  - inversion H1; subst. destruct (getvar_upd e u x w Ne H4) as (v & -> & ->). cbn. eauto.
  - destruct (closure L f _ w) as (v, w') eqn:E. pose proof E as E0. apply (p_closure _ _ _ P) in E as (_ & _ & E1 & E2).
    destruct u as [c z|n z|]; cbn [doit]; [rewrite E2|rewrite E1|rewrite E0]; eauto.
  - use H w. eauto.
  - use H w. eauto.
  - use H w. destruct (truthy L _); [|eauto]. use H0 w'. eauto.
  - use H w. destruct (truthy L _); [eauto|]. use H0 w'. eauto.
  - destruct (H H0 H1 H2 w) as (kvs & w' & A & B & N). rewrite A, B. cbn [bind].
    destruct (p_table _ _ _ P kvs w' N) as (v & w2 & E & _ & _ & E1 & E2). rewrite E. destruct u as [c z|n z|]; cbn [doit] in *; [rewrite E2|rewrite E1|rewrite E]; cbn; eauto.
  - eauto.
  - destruct es; [now apply H|]. use H w. use H0 w'. eauto.
  - eexists. eexists. eauto.
  - use H w. destruct (H0 ltac:(assumption) ltac:(assumption) ltac:(assumption) w') as (kvs & w2 & A2 & B2 & N). rewrite A2, B2. cbn [bind].
    eexists. eexists. split; [reflexivity|]. split; [reflexivity|]. constructor; [cbn; eauto|exact N].
  - destruct its.
    + use H w. eexists. eexists. split; [reflexivity|]. split; [reflexivity|]. apply Forall_forall. intros kv I. apply in_map_iff in I as (z & <- & _). exact I.
    + use H w. destruct (H0 ltac:(assumption) ltac:(assumption) ltac:(assumption) w') as (kvs & w2 & A2 & B2 & N). rewrite A2, B2. cbn [bind].
      eexists. eexists. split; [reflexivity|]. split; [reflexivity|]. constructor; [exact I|exact N].
    + use H w. destruct (H0 ltac:(assumption) ltac:(assumption) ltac:(assumption) w') as (kvs & w2 & A2 & B2 & N). rewrite A2, B2. cbn [bind].
      eexists. eexists. split; [reflexivity|]. split; [reflexivity|]. constructor; [exact I|exact N].
    + use H w. destruct (H0 ltac:(assumption) ltac:(assumption) ltac:(assumption) w') as (kvs & w2 & A2 & B2 & N). rewrite A2, B2. cbn [bind].
      eexists. eexists. split; [reflexivity|]. split; [reflexivity|]. constructor; [exact I|exact N].
Qed.
Lemma list_vals_upd e va u b : look L n_env e = None -> Forall (fun x => trivial true true true true false x = true) b -> Forall (fun x => no_keys x = true) b ->
  Forall (untouched e u) (flat_map occ b) ->
  forall w, exists vs w', list_vals L e va b w = Done vs w' /\ list_vals L e va b (doit u w) = Done vs (doit u w').
Proof.
  intros Ne T K. destruct (vals_upd e va u true true true true false eq_refl eq_refl Ne) as (A & _ & _). induction b as [|x b IH]; intros U w; [cbn; eauto|].
  inversion T; subst. inversion K; subst. cbn [flat_map] in U. apply Forall_app in U as (U1 & U2). destruct (A x ltac:(assumption) ltac:(assumption) U1 w) as (v & w' & E1 & E2).
  destruct b as [|y b]; [cbn [list_vals]; eauto|]. rewrite !list_vals_cons2, E1, E2. cbn [bind].
  destruct (IH ltac:(assumption) ltac:(assumption) U2 w') as (vs & w2 & E3 & E4). rewrite E3, E4. cbn [bind]. eauto.
Qed.

(** a store to a variable always works *)
Definition pstore (n : name) (v : V L) (e : env L) (w : W L) : env L * W L :=
  match look L n e with Some (Val _) => (put L n v e, w) | Some (Cell c) => (e, cset L c v w) | None => (e, gs n v w) end.
Lemma store_plain n v e w : look L n_env e = None -> store L (PVar n) v e w = Done (fst (pstore n v e w)) (snd (pstore n v e w)).
Proof. intros Ne. cbn. unfold pstore. destruct (look L n e) as [[x|c]|]; try reflexivity. rewrite Ne, (p_gset _ _ _ P). reflexivity. Qed.
Definition env_ok (e : env L) : Prop := look L n_env e = None /\ own_cells L e.
Lemma pstore_ok n v e w : env_ok e -> env_ok (fst (pstore n v e w)).
Proof.
  intros (A & B). unfold pstore. destruct (look L n e) as [[x|c]|] eqn:E; cbn; try (split; assumption). split; [now apply put_none|].
  intros k m c. rewrite !look_put, E. destruct (Pos.eqb_spec k n); [discriminate|]. destruct (Pos.eqb_spec m n); [discriminate|]. apply B.
Qed.
Lemma store_comm n m u v e w : env_ok e -> n <> m -> nstores [(n, u); (m, v)] e w = nstores [(m, v); (n, u)] e w.
Proof.
  intros O N. pose proof O as (Ne & Own). unfold nstores. cbn [map pv fst snd stores]. rewrite (store_plain n u e w Ne), (store_plain m v e w Ne). cbn [bind].
  rewrite !store_plain by (apply pstore_ok; exact O). cbn [bind]. assert (M : m <> n) by congruence.
  pose proof (eq_refl (pstore n u e w)) as Pn. pose proof (eq_refl (pstore m v e w)) as Pm. unfold pstore in Pn at 2. unfold pstore in Pm at 2.
  destruct (look L n e) as [[x|c]|] eqn:En; destruct (look L m e) as [[y|d]|] eqn:Em; rewrite !Pn, !Pm; cbn [fst snd];
    unfold pstore; rewrite ?look_put, ?En, ?Em, ?(proj2 (Pos.eqb_neq _ _) N), ?(proj2 (Pos.eqb_neq _ _) M), ?En, ?Em; cbn [fst snd].
  - now rewrite (put_comm m n v u e M).
  - reflexivity.
  - reflexivity.
  - reflexivity.
  - rewrite (p_scc _ _ _ P); [reflexivity|]. intros ->. apply N. now apply (Own n m c).
  - now rewrite (p_sgc _ _ _ P).
  - reflexivity.
  - now rewrite (p_sgc _ _ _ P).
  - now rewrite (p_sgg _ _ _ P).
Qed.
Lemma swap_plain1 n v b : forall e w, env_ok e -> ~ In n (map fst b) -> nstores (b ++ [(n, v)]) e w = nstores ((n, v) :: b) e w.
Proof.
  induction b as [|(m, u) b IH]; intros e w O N; [reflexivity|]. cbn [app]. rewrite nstores_cons, (store_plain m u e w) by apply O. cbn [bind].
  rewrite IH; [|now apply pstore_ok|intros I; apply N; now right].
  transitivity (bind (nstores [(m, u); (n, v)] e w) (fun e w => nstores b e w)).
  - rewrite (nstores_cons m u [(n, v)] e w), (store_plain m u e w) by apply O. cbn [bind]. rewrite (nstores_cons n v b), (nstores_cons n v []), bind_assoc. reflexivity.
  - rewrite store_comm by (try exact O; intros ->; apply N; now left). rewrite <- nstores_app. reflexivity.
Qed.
Lemma swap_plain a b : forall e w, env_ok e -> (forall n, In n (map fst a) -> ~ In n (map fst b)) -> nstores (b ++ a) e w = nstores (a ++ b) e w.
Proof.
  induction a as [|(n, v) a IH]; intros e w O D; [now rewrite app_nil_r|].
  change (b ++ (n, v) :: a) with (b ++ [(n, v)] ++ a). rewrite app_assoc, nstores_app, swap_plain1; [|exact O|apply D; now left].
  cbn [app]. rewrite !nstores_cons, bind_assoc, (store_plain n v e w) by apply O. cbn [bind]. rewrite <- nstores_app. apply IH; [now apply pstore_ok|].
  intros m I. apply D. now right.
Qed.
Lemma nstores_vals_upd b va nvs : Forall (fun x => trivial true true true true false x = true) b -> Forall (fun x => no_keys x = true) b ->
  (forall y, In y (flat_map occ b) -> ~ In (v_name y) (map fst nvs)) ->
  forall e w, env_ok e -> exists e1 w1 vb w2 w3, nstores nvs e w = Done e1 w1 /\ list_vals L e va b w = Done vb w2 /\
    list_vals L e1 va b w1 = Done vb w3 /\ nstores nvs e w2 = Done e1 w3 /\ env_ok e1.
Proof.
  intros T K. induction nvs as [|(n, v) nvs IH]; intros D e w O.
  - destruct (list_vals_upd e va UNone b (proj1 O) T K) with (w := w) as (vb & w2 & E & _); [apply Forall_forall; intros; exact I|].
    exists e, w, vb, w2, w2. auto.
  - rewrite nstores_cons, (store_plain n v e w) by apply O. cbn [bind].
    assert (D' : forall y, In y (flat_map occ b) -> ~ In (v_name y) (map fst nvs)) by (intros y I J; apply (D y I); now right).
    destruct (IH D' (fst (pstore n v e w)) (snd (pstore n v e w)) (pstore_ok n v e w O)) as (e1 & w1 & vb & w2 & w3 & E1 & E2 & E3 & E4 & O1).
    (* the first store and the expressions *)
    assert (Q : exists w0, list_vals L e va b w = Done vb w0 /\ pstore n v e w0 = (fst (pstore n v e w), w2)).
    { unfold pstore in E2 |- *. destruct (look L n e) as [[x|c]|] eqn:En; cbn [fst snd] in *.
      - exists w2. split; [|reflexivity]. rewrite <- E2. symmetry. apply list_vals_agree. apply Forall_forall. intros y Iy.
        assert (Ny : v_name y <> n) by (intros F; apply (D y Iy); now left). split; rewrite ?look_put; [now rewrite (proj2 (Pos.eqb_neq _ _) Ny)|].
        intros _. destruct (Pos.eqb_spec n_env n) as [<-|]; [|reflexivity]. destruct O as (O & _). congruence.
      - destruct (list_vals_upd e va (UC c v) b (proj1 O) T K) with (w := w) as (vs & w0 & F1 & F2).
        { apply Forall_forall. intros y Iy. cbn. intros F. apply (D y Iy). left. symmetry. now apply (proj2 O _ _ c). }
        cbn [doit] in F2. rewrite E2 in F2. injection F2 as -> ->. exists w0. auto.
      - destruct (list_vals_upd e va (UG n v) b (proj1 O) T K) with (w := w) as (vs & w0 & F1 & F2).
        { apply Forall_forall. intros y Iy. cbn. intros _ F. apply (D y Iy). now left. }
        cbn [doit] in F2. rewrite E2 in F2. injection F2 as -> ->. exists w0. auto. }
    destruct Q as (w0 & Q1 & Q2). exists e1, w1, vb, w0, w3. split; [exact E1|]. split; [exact Q1|]. split; [exact E3|]. split; [|exact O1].
    rewrite nstores_cons, (store_plain n v e w0) by apply O. rewrite Q2. cbn [bind fst snd]. exact E4.
Qed.
End Plain.

(** * The merge *)
Lemma vars_apart prev next : (forall x, In x (s_sources next ++ s_targets next) -> forall i, In i (ids x) -> ~ In i (map v_id (nodes (s_targets prev)))) ->
  names_right (s_targets prev) (s_sources next ++ s_targets next) ->
  forall y n i, In y (flat_map occ (s_sources next ++ s_targets next)) -> In (n, i) (node_occ y) -> ~ In n (map v_name (nodes (s_targets prev))).
Proof.
  intros F NR y n i Iy In1 J. apply in_map_iff in J as (x & <- & J). destruct (NR x y (v_name x) i J Iy In1 eq_refl) as (x' & Ix' & <-).
  apply in_flat_map in Iy as (z & Iz & Iy). apply (F z Iz (v_id x')); [|now apply in_map]. apply (occ_ids z y Iy).
  unfold node_occ in In1. unfold node_ids. destruct (is_global y); cbn in In1 |- *; repeat (destruct In1 as [E|In1]; [injection E; auto|]); destruct In1.
Qed.

(** The statements, with the two ways their parts commute left open. *)
Lemma assign_same safe has_env forb cell va prev next m e w :
  s_local prev = false -> s_local next = false -> merge safe has_env forb prev next = Some m ->
  Forall is_var (s_targets prev) -> Forall is_var (s_targets next) -> s_sources next <> [] ->
  (forall pvs, incl (map fst pvs) (map v_name (nodes (s_targets prev))) -> forall w,
     bind (nstores pvs e w) (fun e1 w => bind (list_vals L e1 va (s_sources next) w) (fun vb w => Done (e1, vb) w)) =
     bind (list_vals L e va (s_sources next) w) (fun vb w => bind (nstores pvs e w) (fun e1 w => Done (e1, vb) w))) ->
  (forall a1 a2 b, incl (map fst (a1 ++ a2)) (map v_name (nodes (s_targets prev))) -> incl (map fst b) (map v_name (nodes (s_targets next))) -> forall w,
     nstores (a2 ++ b ++ a1) e w = nstores (a2 ++ a1 ++ b) e w) ->
  bind (run L cell va prev e w) (fun e w => run L cell va next e w) = run L cell va m e w.
Proof.
  intros Lp Ln M Tp Tn Sh H1 H2. destruct (merge_checked _ _ _ _ _ _ Tp M) as [C1 C2 C3 _ _ ->].
  set (a := s_sources prev) in *. set (b := s_sources next) in *. set (np := length a) in *.
  set (P := nodes (s_targets prev)) in *. set (N := nodes (s_targets next)) in *.
  assert (LP : length P = length (s_targets prev)) by now apply nodes_length. assert (LN : length N = length (s_targets next)) by now apply nodes_length.
  set (P1 := firstn np P). set (P2 := skipn np P).
  assert (EP : P = P1 ++ P2) by (symmetry; apply firstn_skipn).
  assert (LP1 : length P1 = np) by (unfold P1; rewrite firstn_length; lia). assert (LP2 : length P2 = (length (s_targets prev) - np)%nat) by (unfold P2; rewrite skipn_length; lia).
  assert (Em : nodes (firstn np (s_targets prev) ++ s_targets next ++ skipn np (s_targets prev)) = P1 ++ N ++ P2).
  { rewrite !nodes_app. unfold P1, P2, P. rewrite (nodes_vars _ Tp) at 1 2. rewrite firstn_map, skipn_map. f_equal; [|f_equal].
    - generalize (firstn np (nodes (s_targets prev))). intros l. induction l as [|x l IH]; [reflexivity|]. cbn. now rewrite IH.
    - generalize (skipn np (nodes (s_targets prev))). intros l. induction l as [|x l IH]; [reflexivity|]. cbn. now rewrite IH. }
  assert (Tm : Forall is_var (firstn np (s_targets prev) ++ s_targets next ++ skipn np (s_targets prev))).
  { apply Forall_forall. intros x I. rewrite Forall_forall in Tp, Tn. apply in_app_or in I as [I|I]; [|apply in_app_or in I as [I|I]].
    - apply Tp. rewrite <- (firstn_skipn np). apply in_or_app. now left.
    - now apply Tn.
    - apply Tp. rewrite <- (firstn_skipn np). apply in_or_app. now right. }
  rewrite (run_assign_eq cell va prev) by assumption. rewrite (run_assign_eq cell va) by assumption. cbn [s_local s_targets s_sources]. rewrite Em.
  fold a b P. rewrite (list_vals_merged L e va a b (or_introl Sh) w). rewrite !bind_assoc.
  assert (Cut : bind (list_vals L e va a w) (fun vs w => bind (nstores (rev (combine (map v_name P) (adjust L (length P) vs))) e w) (fun e w => run L cell va next e w)) =
    bind (singles L e va a w) (fun vs w => bind (nstores (rev (combine (map v_name P) (adjust L (length P) vs))) e w) (fun e w => run L cell va next e w))).
  { destruct (Nat.eq_dec np (length P)) as [Eq|Ne].
    - rewrite <- Eq. pose proof (list_vals_cut L e va a (fun vs w => bind (nstores (rev (combine (map v_name P) vs)) e w) (fun e w => run L cell va next e w)) w) as Q. fold np in Q.
      rewrite Q. apply bind_ext; [reflexivity|]. intros vs w' Es. apply singles_length in Es. unfold np. rewrite <- Es. now rewrite adjust_same.
    - destruct C2 as (Na & _); [lia|]. rewrite list_vals_singles by exact Na. reflexivity. }
  etransitivity; [exact Cut|]. clear Cut. apply bind_ext; [reflexivity|]. intros vs w1 Es. pose proof (singles_length _ _ _ _ _ _ _ Es) as Lvs. fold np in Lvs. rewrite bind_assoc.
  assert (Av : adjust L (length P) vs = vs ++ repeat (nil L) (length P2)).
  { rewrite <- (adjust_nil L (length P2)), <- adjust_app, app_nil_r. f_equal. lia. }
  rewrite Av. set (X1 := combine (map v_name P1) vs). set (X2 := combine (map v_name P2) (repeat (nil L) (length P2))).
  assert (EX : combine (map v_name P) (vs ++ repeat (nil L) (length P2)) = X1 ++ X2) by (rewrite EP at 1; rewrite map_app; apply combine_app; rewrite map_length; lia).
  rewrite EX, rev_app_distr.
  assert (Inc : incl (map fst (rev X1 ++ rev X2)) (map v_name P)).
  { intros n I. rewrite map_app, !map_rev in I. rewrite EP, map_app. apply in_or_app. apply in_app_or in I as [I|I]; apply in_rev in I.
    - left. apply in_map_iff in I as ((k, v) & <- & I). now apply in_combine_l in I.
    - right. apply in_map_iff in I as ((k, v) & <- & I). now apply in_combine_l in I. }
  transitivity (bind (bind (nstores (rev X2 ++ rev X1) e w1) (fun e1 w => bind (list_vals L e1 va b w) (fun vb w => Done (e1, vb) w)))
    (fun r w => nstores (rev (combine (map v_name N) (adjust L (length N) (snd r)))) (fst r) w)).
  { rewrite bind_assoc. apply bind_ext; [reflexivity|]. intros e1 w2 _. rewrite (run_assign_eq cell va next) by assumption. fold b N. rewrite bind_assoc. apply bind_ext; [reflexivity|]. reflexivity. }
  rewrite H1.
  2:{ intros n I. apply Inc. rewrite map_app in *. apply in_app_or in I. apply in_or_app. tauto. }
  rewrite bind_assoc. apply bind_ext; [reflexivity|]. intros vb w2 Eb. cbn [bind]. rewrite bind_assoc. cbn [bind fst snd]. rewrite <- nstores_app.
  assert (Am : adjust L (length (P1 ++ N ++ P2)) (vs ++ vb) = vs ++ adjust L (length N) vb ++ repeat (nil L) (length P2)).
  { rewrite !app_length, LP1, <- Lvs, adjust_app. f_equal. destruct (Nat.eq_dec np (length (s_targets prev))) as [Eq|Ne].
    - assert (length P2 = O) as -> by lia. now rewrite Nat.add_0_r, app_nil_r.
    - destruct C2 as (_ & Nb & Lb); [lia|]. apply adjust_more. rewrite (list_vals_singles L e va b Nb) in Eb. apply singles_length in Eb. lia. }
  rewrite Am. set (NX := combine (map v_name N) (adjust L (length N) vb)).
  assert (MX : combine (map v_name (P1 ++ N ++ P2)) (vs ++ adjust L (length N) vb ++ repeat (nil L) (length P2)) = X1 ++ NX ++ X2).
  { rewrite !map_app, combine_app by (rewrite map_length; lia). f_equal. now rewrite combine_app by now rewrite map_length, adjust_length. }
  rewrite MX, !rev_app_distr, <- !app_assoc. symmetry. apply H2; [exact Inc|]. intros n I. rewrite map_rev in I. apply in_rev in I.
  apply in_map_iff in I as ((k, v) & <- & I). now apply in_combine_l in I.
Qed.

Lemma in_nodes x ts : In x (nodes ts) -> In (EVar x) ts.
Proof. induction ts as [|t ts IH]; [easy|]. destruct t; cbn; try (intros I; right; now apply IH). intros [->|I]; [now left|right; now apply IH]. Qed.

(** the first targets are locals that no function shares *)
Theorem assign_locals safe has_env forb cell va prev next m e w :
  s_local prev = false -> s_local next = false -> merge safe has_env forb prev next = Some m ->
  Forall uncaptured_local (s_targets prev) -> Forall is_var (s_targets next) -> s_sources next <> [] ->
  names_right (s_targets prev) (s_sources next ++ s_targets next) -> in_scope L e (s_targets prev) (s_sources next ++ s_targets next) ->
  Forall (scoped L e) (nodes (s_targets prev)) ->
  bind (run L cell va prev e w) (fun e w => run L cell va next e w) = run L cell va m e w.
Proof.
  intros Lp Ln M Tp Tn Sh NR IS Sc.
  assert (Tp' : Forall is_var (s_targets prev)) by (eapply Forall_impl; [|exact Tp]; intros []; cbn; tauto).
  pose proof (merge_checked _ _ _ _ _ _ Tp' M) as [_ _ C3 _ _ _]. pose proof (vars_apart prev next C3 NR) as Ap.
  assert (Vals : forall n, In n (map v_name (nodes (s_targets prev))) -> is_val e n).
  { intros n I. apply in_map_iff in I as (x & <- & I). rewrite Forall_forall in Tp, Sc. pose proof (Tp _ (in_nodes _ _ I)) as (G & Cx). specialize (Sc x I).
    unfold scoped, is_global in *. destruct (v_id x); try easy. rewrite Cx in Sc. exact Sc. }
  apply (assign_same safe has_env forb cell va prev next m e w); try assumption.
  - intros pvs Inc w0. rewrite !nstores_vals by (intros n I; apply Vals, Inc, I). cbn [bind].
    set (e1 := fold_left _ pvs e).
    assert (Le : forall n, ~ In n (map v_name (nodes (s_targets prev))) -> look L n e1 = look L n e).
    { intros n Nn. unfold e1. clear - Inc Nn. revert e Inc. induction pvs as [|(k, v) pvs IH]; intros e Inc; [reflexivity|]. cbn [fold_left fst snd].
      rewrite IH by (intros z I; apply Inc; now right). rewrite look_put. destruct (Pos.eqb_spec n k) as [->|]; [|reflexivity].
      exfalso. apply Nn, Inc. now left. }
    rewrite (list_vals_agree L e1 e va (s_sources next)).
    + apply bind_ext; [reflexivity|]. intros vb w' _. rewrite nstores_vals by (intros n I; apply Vals, Inc, I). reflexivity.
    + apply (occ_agree L e e1 prev next); try assumption.
      * intros x I. apply in_or_app. now left.
      * intros x y n i I J. apply NR; [exact I|]. rewrite flat_map_app. apply in_or_app. now left.
      * intros y I. apply IS. rewrite flat_map_app. apply in_or_app. now left.
  - intros a1 a2 b Ia Ib w0. rewrite !(nstores_app a2). rewrite nstores_vals.
    2:{ intros n I. apply Vals, Ia. rewrite map_app. apply in_or_app. now right. }
    cbn [bind]. set (e2 := fold_left _ a2 e).
    assert (K : (forall n, is_val e n -> is_val e2 n) /\ (forall n, look L n e2 = None <-> look L n e = None)).
    { unfold e2. clear. revert e. induction a2 as [|(k, v) a2 IH]; intros e; [easy|]. cbn [fold_left fst snd]. destruct (IH (put L k v e)) as (A & B). split.
      - intros n Hn. apply A. now apply put_val.
      - intros n. rewrite B. apply put_none. }
    destruct K as (K1 & K2). apply swap_vals.
    + intros n I. apply K1, Vals, Ia. rewrite map_app. apply in_or_app. now left.
    + intros n m0 I J. assert (Inn : In n (map v_name (nodes (s_targets prev)))) by (apply Ia; rewrite map_app; apply in_or_app; now left).
      apply Ib in J. apply in_map_iff in J as (y & <- & J). assert (Iy : In y (flat_map occ (s_sources next ++ s_targets next))).
      { rewrite flat_map_app. apply in_or_app. right. apply in_flat_map. exists (EVar y). split; [now apply in_nodes|now left]. }
      split; [intros F; apply (Ap y (v_name y) (v_id y) Iy (or_introl eq_refl)); now rewrite F|].
      intros E F. subst n. apply K2 in E. destruct (is_global y) eqn:G.
      * apply (Ap y n_env (v_env y) Iy); [|exact Inn]. unfold node_occ. rewrite G. right. now left.
      * destruct (IS y Iy G) as [F|(x & Ix & Ex)]; [contradiction|]. apply (Ap y (v_name y) (v_id y) Iy (or_introl eq_refl)). rewrite <- Ex. now apply in_map.
Qed.

(** plain globals *)
Theorem assign_plain forb cell va prev next m e w gv gs : plain L gv gs -> look L n_env e = None -> own_cells L e ->
  s_local prev = false -> s_local next = false -> merge true false forb prev next = Some m ->
  Forall is_var (s_targets prev) -> Forall is_var (s_targets next) -> s_sources next <> [] -> Forall (fun x => no_keys x = true) (s_sources next) ->
  names_right (s_targets prev) (s_sources next ++ s_targets next) -> in_scope L e (s_targets prev) (s_sources next ++ s_targets next) ->
  Forall (scoped L e) (nodes (s_targets prev)) ->
  bind (run L cell va prev e w) (fun e w => run L cell va next e w) = run L cell va m e w.
Proof.
  intros P Ne Own Lp Ln M Tp Tn Sh K NR IS Sc. pose proof (merge_checked _ _ _ _ _ _ Tp M) as [_ _ C3 C4 _ _]. pose proof (vars_apart prev next C3 NR) as Ap.
  destruct (existsb (fun x => is_global x || (negb (s_local prev) && v_captured x)) (nodes (s_targets prev))) eqn:R.
  - destruct C4 as (T & _); [reflexivity|]. assert (O : env_ok e) by (split; assumption).
    apply (assign_same true false forb cell va prev next m e w); try assumption.
    + intros pvs Inc w0. destruct (nstores_vals_upd gv gs P (s_sources next) va pvs T K) with (e := e) (w := w0) as (e1 & w1 & vb & w2 & w3 & E1 & E2 & E3 & E4 & _).
      * intros y Iy J. apply Inc in J. revert J. apply (Ap y _ (v_id y)); [|now left]. rewrite flat_map_app. apply in_or_app. now left.
      * exact O.
      * rewrite E1, E2. cbn [bind]. rewrite E3, E4. reflexivity.
    + intros a1 a2 b Ia Ib w0. rewrite !(nstores_app a2).
      assert (Q : exists e2 w2, nstores a2 e w0 = Done e2 w2 /\ env_ok e2).
      { clear - P O. revert e w0 O. induction a2 as [|(n, v) a2 IH]; intros e w O; [exists e, w; now split|]. rewrite nstores_cons, (store_plain gv gs P n v e w) by apply O. cbn [bind].
        apply IH. now apply pstore_ok. }
      destruct Q as (e2 & w2 & -> & O2). cbn [bind]. apply (swap_plain gv gs P); [exact O2|]. intros n I J.
      apply Ib in J. apply in_map_iff in J as (y & <- & J). assert (Iy : In y (flat_map occ (s_sources next ++ s_targets next))).
      { rewrite flat_map_app. apply in_or_app. right. apply in_flat_map. exists (EVar y). split; [now apply in_nodes|now left]. }
      apply (Ap y (v_name y) (v_id y) Iy (or_introl eq_refl)). apply Ia. rewrite map_app. apply in_or_app. now left.
  - apply (assign_locals true false forb cell va prev next m e w); try assumption. apply Forall_forall. intros t It. rewrite Forall_forall in Tp. pose proof (Tp t It) as Tt.
    destruct t; try destruct Tt. assert (Ix : In x (nodes (s_targets prev))).
    { clear - It. induction (s_targets prev) as [|t ts IH]; [destruct It|]. destruct It as [->|It]; [now left|]. destruct t; cbn; try now apply IH. right. now apply IH. }
    pose proof (existsb_no _ _ R x Ix) as F. cbv beta in F. rewrite Lp in F. cbn in F. apply orb_false_iff in F. exact F.
Qed.
End Assign.
