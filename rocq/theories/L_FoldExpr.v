(** Folding an expression keeps its values and effects. *)
From Coq Require Import Lia.
From Verif Require Import M_Base L_Util M_Fold S_Fold L_Fold.
Open Scope Z_scope.
Lemma limit_SS : exists f, recursion_limit = S (S f).
Proof. exists 998%nat. reflexivity. Qed.
Local Opaque recursion_limit.

Section expr_ind.
  Context (P : expr -> Prop).
  Context (HC : forall v, P (EConst v)).
  Context (HO : forall id mu ex args, Forall P args -> P (EOther id mu ex args)).
  Context (HG : forall e, P e -> P (EGroup e)).
  Context (HU : forall op e, P e -> P (EUn op e)).
  Context (HB : forall op l r, P l -> P r -> P (EBin op l r)).
  Context (HF : forall f args, Forall P args -> P (ECall f args)).
  Context (HW : forall v e, P e -> P (EWorse v e)).
  Fixpoint expr_ind' (e : expr) : P e :=
    let all := fix all (l : list expr) : Forall P l :=
      match l with [] => Forall_nil _ | x :: l => Forall_cons _ (expr_ind' x) (all l) end in
    match e with
    | EConst v => HC v
    | EOther id mu ex args => HO id mu ex args (all args)
    | EGroup e => HG e (expr_ind' e)
    | EUn op e => HU op e (expr_ind' e)
    | EBin op l r => HB op l r (expr_ind' l) (expr_ind' r)
    | ECall f args => HF f args (all args)
    | EWorse v e => HW v e (expr_ind' e)
    end.
End expr_ind.

Lemma number_value lang a x : number lang a x -> value_of lang a.
Proof. intros N. destruct a; cbn [value_of]; eauto. Qed.
Lemma binary_value lang op a b c : value_of lang a -> value_of lang b -> binary_means lang op a b c -> value_of lang c.
Proof.
  intros A B M. destruct op; cbn [binary_means] in M;
    try (destruct M as (x & y & r & _ & _ & N & _); eapply number_value; exact N);
    try (destruct M as [_ (t & -> & _)]; exact I);
    try (destruct M as (t & -> & _); exact I).
  - destruct M as [[_ ->]|[_ ->]]; assumption.
  - destruct M as [[_ ->]|[_ ->]]; assumption.
  - destruct M as (s & t & _ & _ & ->). exact I.
Qed.
Lemma unary_value lang op a c : unary_means lang op a c -> value_of lang c.
Proof.
  intros M. destruct op; cbn [unary_means] in M.
  - destruct M as (x & r & _ & N & _). eapply number_value; exact N.
  - destruct M as (x & r & _ & N & _). eapply number_value; exact N.
  - destruct M as (t & -> & _). exact I.
  - destruct M as (s & _ & -> & N). eapply number_value; exact N.
Qed.
Lemma call_value lang f args c : Forall (value_of lang) args -> call_means lang f args c -> value_of lang c.
Proof.
  intros A M. destruct args as [|a [|b [|d [|e args]]]]; destruct f; cbn [call_means] in M; try contradiction;
    repeat match goal with H : Forall _ (_ :: _) |- _ => apply Forall_cons_iff in H; destruct H end;
    try (destruct M as [_ M]; eapply unary_value; exact M);
    try (destruct M as [_ M]; eapply binary_value; [| |exact M]; assumption).
  - destruct M as (x & _ & N). eapply number_value; exact N.
  - destruct M as (x & r & _ & N & _). eapply number_value; exact N.
  - destruct M as (x & r & _ & N & _). eapply number_value; exact N.
  - destruct M as (x & y & _ & _ & N). eapply number_value; exact N.
  - destruct M as (x & y & _ & _ & N). eapply number_value; exact N.
  - destruct M as (x & y & z & _ & _ & _ & N). eapply number_value; exact N.
Qed.

Lemma rtruthy_const v : rtruthy (RV v) = is_truthy v.
Proof. now destruct v as [|[]| | |]. Qed.

Section correct.
  Context {St : Type} (lang : language) (m : machine St) (longer : lval -> expr -> bool).
  Context (OK : machine_ok lang m).

  Definition const_ok (e : expr) : Prop :=
    forall v, get_const e = Some v -> value_of lang v /\ forall s, eval m e s = Some ([RV v], s).
  Definition same (many : bool) (e e' : expr) : Prop :=
    (forall s, eval1 m e' s = eval1 m e s) /\ (many = true -> forall s, eval m e' s = eval m e s).
  Definition good (e : expr) : Prop := forall many e', source_expr lang e -> no_spread many e ->
    fold_expr longer lang e = Ok e' -> const_ok e' /\ same many e e'.

  Lemma same_refl many e : same many e e. Proof. now split. Qed.
  Lemma same_eval many e e' : (forall s, eval m e' s = eval m e s) -> same many e e'.
  Proof. intros H. split; [|auto]. intros s. unfold eval1. now rewrite H. Qed.

  Lemma set_const_ok many e e0 v : value_of lang v -> (forall s, eval m e s = Some ([RV v], s)) ->
    same many e0 e ->
    const_ok (set_const longer e v) /\ same many e0 (set_const longer e v).
  Proof.
    intros V E [S1 S2]. unfold set_const. destruct (longer v e).
    - split; [|split; [exact S1|exact S2]]. intros w W. cbn [get_const] in W. assert (w = v) by congruence. subst. auto.
    - split.
      + intros w W. cbn [get_const] in W. assert (w = v) by congruence. subst. auto.
      + split.
        * intros s. rewrite <- S1. unfold eval1. now rewrite E.
        * intros M s. rewrite <- (S2 M). now rewrite E.
  Qed.

  Lemma no_const many e e' : get_const e' = None -> same many e e' -> const_ok e' /\ same many e e'.
  Proof. intros N S. split; [|exact S]. intros v V. congruence. Qed.

  (** Expressions that are not calls give one value. *)
  Lemma one_value e : source_expr lang e -> multi_expr e = false -> forall s vs s',
    eval m e s = Some (vs, s') -> vs = [first vs].
  Proof.
    intros S M s vs s' E. destruct e; cbn [multi_expr source_expr] in *; try contradiction; cbn [eval] in E; try discriminate M.
    - injection E as <- <-. reflexivity.
    - subst multi. destruct (eval_list _ _ _ _) as [[ws t]|]; [|discriminate E].
      destruct (m_other m id false ws t) as [[us t']|]; [|discriminate E]. cbn [adjust] in E. injection E as <- <-. reflexivity.
    - destruct (eval m e s) as [[ws t]|]; [|discriminate E]. injection E as <- <-. reflexivity.
    - destruct (eval m e s) as [[ws t]|]; [|discriminate E]. destruct (m_un m op (first ws) t) as [[r u]|]; [|discriminate E].
      injection E as <- <-. reflexivity.
    - destruct (eval m e1 s) as [[ws t]|]; [|discriminate E].
      destruct (match op with BAnd => _ | BOr => _ | _ => _ end); [injection E as <- <-; reflexivity|].
      destruct (eval m e2 t) as [[us t']|]; [|discriminate E].
      destruct op; try (destruct (m_bin m _ (first ws) (first us) t') as [[r u]|]; [|discriminate E]);
        injection E as <- <-; reflexivity.
  Qed.

  Lemma eval1_some e s vs s' : eval m e s = Some (vs, s') -> eval1 m e s = Some (first vs, s').
  Proof. unfold eval1. intros ->. reflexivity. Qed.

  (** Evaluation of a list. *)
  Fixpoint spread_list (expand : bool) (l : list expr) : Prop :=
    match l with
    | [] => True
    | x :: l => no_spread (match l with [] => expand | _ => false end) x /\ spread_list expand l
    end.
  Fixpoint source_list (l : list expr) : Prop :=
    match l with [] => True | x :: l => source_expr lang x /\ source_list l end.

  Lemma spread_other many id mu ex args : no_spread many (EOther id mu ex args) -> spread_list ex args.
  Proof.
    cbn [no_spread]. induction args as [|x l IH]; [auto|]. intros [A B]. cbn [spread_list]. auto.
  Qed.
  Lemma spread_call many f args : no_spread many (ECall f args) -> spread_list true args.
  Proof.
    cbn [no_spread]. induction args as [|x l IH]; [auto|]. intros [A B]. cbn [spread_list]. auto.
  Qed.

  Lemma list_ok expand l : Forall good l -> source_list l -> spread_list expand l ->
    forall l', fold_list (fold_expr longer lang) l = Ok l' ->
    Forall const_ok l' /\ length l' = length l /\
    forall s, eval_list (eval m) expand l' s = eval_list (eval m) expand l s.
  Proof.
    intros G. induction G as [|x l GX G IH]; intros S N l' F.
    - cbn in F. injection F as <-. repeat split. constructor.
    - destruct S as [SX S], N as [NX N]. cbn [fold_list bind] in F.
      destruct (fold_expr longer lang x) as [x'|] eqn:FX; [|discriminate F]. cbn [bind] in F.
      destruct (fold_list (fold_expr longer lang) l) as [k|] eqn:FL; [|discriminate F]. cbn [bind] in F.
      apply Ok_inj in F. subst l'. destruct (IH S N k eq_refl) as (IC & IL & IE).
      destruct (GX _ x' SX NX FX) as (XC & X1 & X2).
      split; [now constructor|]. split; [cbn; congruence|].
      intros s. cbn [eval_list].
      assert (Q : (match k with [] => expand | _ => false end) = (match l with [] => expand | _ => false end)).
      { destruct k, l; cbn in IL; congruence. }
      rewrite Q. set (mm := match l with [] => expand | _ => false end) in *. destruct mm.
      + rewrite (X2 eq_refl s). destruct (eval m x s) as [[vs t]|]; [|reflexivity]. now rewrite IE.
      + specialize (X1 s). unfold eval1 in X1.
        destruct (eval m x' s) as [[vs t]|], (eval m x s) as [[ws u]|]; try discriminate X1; [|reflexivity].
        injection X1 as F1 ->. cbn [adjust]. rewrite F1, IE. reflexivity.
  Qed.

  Lemma consts_eval l : Forall const_ok l -> forall vs, get_consts l = Some vs ->
    Forall (value_of lang) vs /\ forall expand s, eval_list (eval m) expand l s = Some (map RV vs, s).
  Proof.
    intros C. induction C as [|x l CX C IH]; intros vs G; cbn [get_consts] in G.
    - assert (vs = []) by congruence. subst. split; [constructor|reflexivity].
    - destruct (get_const x) as [v|] eqn:X; [|discriminate G]. destruct (get_consts l) as [ws|]; [|discriminate G].
      assert (vs = v :: ws) by congruence. subst vs. destruct (CX v X) as [V E], (IH ws eq_refl) as [W EL].
      split; [now constructor|]. intros expand s. cbn [eval_list]. rewrite E, EL. cbn [map].
      destruct l; [destruct expand|]; reflexivity.
  Qed.

  Lemma fold_good e : good e.
  Proof.
    destruct OK as (OU & OB & OC).
    induction e as [v|id mu ex args IH|e IH|op e IH|op l r IHl IHr|f args IH|v e IH] using expr_ind';
      intros many e' S N F; cbn [fold_expr] in F.
    - apply Ok_inj in F. subst. split; [|apply same_refl].
      intros w W. cbn [get_const] in W. assert (w = v) by congruence. subst. split; [exact S|reflexivity].
    - destruct (fold_list (fold_expr longer lang) args) as [args'|] eqn:FL; [|discriminate F]. cbn [bind] in F.
      apply Ok_inj in F. subst e'. apply no_const; [reflexivity|].
      destruct (list_ok ex args IH S (spread_other _ _ _ _ _ N) args' FL) as (_ & _ & E). apply same_eval. intros s. cbn [eval]. now rewrite E.
    - cbn [source_expr no_spread] in *.
      destruct (fold_expr longer lang e) as [x|] eqn:FX; [|discriminate F]. cbn [bind] in F.
      apply Ok_inj in F. subst e'. destruct (IH false x S N FX) as (C & E1 & _). split.
      + intros v V. cbn [get_const] in V. destruct (C v V) as [A B]. split; [exact A|].
        intros s. cbn [eval]. now rewrite B.
      + apply same_eval. intros s. cbn [eval]. specialize (E1 s). unfold eval1 in E1.
        destruct (eval m x s) as [[vs t]|], (eval m e s) as [[ws u]|]; congruence.
    - cbn [source_expr no_spread] in *.
      destruct (fold_expr longer lang e) as [x|] eqn:FX; [|discriminate F]. cbn [bind] in F.
      destruct (IH false x S N FX) as (C & E1 & _).
      assert (SE : same many (EUn op e) (EUn op x)).
      { apply same_eval. intros s. cbn [eval]. specialize (E1 s). unfold eval1 in E1.
        destruct (eval m x s) as [[vs t]|], (eval m e s) as [[ws u]|]; try discriminate E1; [|reflexivity].
        injection E1 as -> ->. reflexivity. }
      destruct (get_const x) as [v|] eqn:G.
      + destruct (C v G) as [V E].
        destruct (const_unary lang op v) as [c|] eqn:U; [|discriminate F]. cbn [bind] in F. apply Ok_inj in F. subst e'.
        destruct c as [c|]; [|now apply no_const].
        apply unary_sound in U; [|exact V].
        apply set_const_ok; [eapply unary_value; exact U| |exact SE].
        intros s. cbn [eval]. rewrite E. cbn [first]. now rewrite (OU op v c s V U).
      + apply Ok_inj in F. subst e'. now apply no_const.
    - destruct S as [Sl Sr]. cbn [no_spread] in N. destruct N as [Nl Nr].
      destruct (fold_expr longer lang l) as [l'|] eqn:Fl; [|discriminate F]. cbn [bind] in F.
      destruct (fold_expr longer lang r) as [r'|] eqn:Fr; [|discriminate F]. cbn [bind] in F.
      destruct (IHl false l' Sl Nl Fl) as (Cl & El & _).
      assert (NR : exists mr, no_spread mr r /\
        (op = BAnd \/ op = BOr -> mr = many /\ (many = true -> multi_expr r = false))).
      { destruct op; try (exists false; split; [exact Nr|intros [K|K]; discriminate K]);
          (exists many; split; [apply Nr|intros _; split; [reflexivity|apply Nr]]). }
      clear Nr. destruct NR as (mr & NR & MR).
      destruct (IHr mr r' Sr NR Fr) as (Cr & Er & Em).
      assert (SE : same many (EBin op l r) (EBin op l' r')).
      { apply same_eval. intros s. cbn [eval]. specialize (El s). unfold eval1 in El.
        destruct (eval m l' s) as [[vs t]|], (eval m l s) as [[ws u]|]; try discriminate El; [|reflexivity].
        injection El as -> ->. destruct (match op with BAnd => _ | BOr => _ | _ => _ end); [reflexivity|].
        specialize (Er u). unfold eval1 in Er.
        destruct (eval m r' u) as [[vs2 t2]|], (eval m r u) as [[ws2 u2]|]; try discriminate Er; [|reflexivity].
        injection Er as -> ->. reflexivity. }
      assert (RIGHT : op = BAnd \/ op = BOr -> forall lv, (forall s, eval m l' s = Some ([RV lv], s)) ->
        (op = BAnd -> is_truthy lv = true) -> (op = BOr -> is_truthy lv = false) -> same many (EBin op l r) r').
      { intros OP lv EL T1 T2. destruct (MR OP) as [-> ML]. destruct SE as [SE1 SE2].
        assert (EV : forall s, eval m (EBin op l' r') s =
          match eval m r' s with Some (ws, u) => Some ([first ws], u) | None => None end).
        { intros s. cbn [eval]. rewrite EL. cbn [first]. rewrite rtruthy_const.
          destruct OP as [->| ->]; [rewrite (T1 eq_refl)|rewrite (T2 eq_refl)]; cbn [negb];
            destruct (eval m r' s) as [[ws u]|]; reflexivity. }
        split.
        - intros s. rewrite <- SE1. unfold eval1. rewrite EV. destruct (eval m r' s) as [[ws u]|]; reflexivity.
        - intros M s. rewrite <- (SE2 M), EV, (Em M s). destruct (eval m r s) as [[ws u]|] eqn:R; [|reflexivity].
          now rewrite <- (one_value r Sr (ML M) s ws u R). }
      destruct (get_const l') as [lv|] eqn:Gl.
      + destruct (Cl lv Gl) as [Vl EL]. destruct (get_const r') as [rv|] eqn:Gr.
        * destruct (Cr rv Gr) as [Vr ER].
          destruct (const_binary op lv rv) as [c|] eqn:B; [|discriminate F]. cbn [bind] in F. apply Ok_inj in F. subst e'.
          destruct c as [c|]; [|now apply no_const]. pose proof B as BM.
          apply (binary_sound lang) in BM; [|exact Vl|exact Vr].
          apply set_const_ok; [eapply binary_value; [| |exact BM]; assumption| |exact SE].
          intros s. cbn [eval]. rewrite EL. cbn [first]. rewrite rtruthy_const.
          destruct op; cbn iota; try (rewrite ER; cbn [first]; now rewrite (OB _ lv rv c s Vl Vr BM)).
          -- cbn [const_binary] in B. unfold lua_or in B. apply Ok_inj in B.
             destruct (is_truthy lv); [congruence|]. rewrite ER. cbn [first]. congruence.
          -- cbn [const_binary] in B. unfold lua_and in B. apply Ok_inj in B.
             destruct (is_truthy lv); cbn [negb]; [|congruence]. rewrite ER. cbn [first]. congruence.
        * assert (LEFT : op = BAnd \/ op = BOr -> (op = BAnd -> is_truthy lv = false) -> (op = BOr -> is_truthy lv = true) ->
            const_ok (set_const longer (EBin op l' r') lv) /\ same many (EBin op l r) (set_const longer (EBin op l' r') lv)).
          { intros OP T1 T2. apply set_const_ok; [exact Vl| |exact SE].
            intros s. cbn [eval]. rewrite EL. cbn [first]. rewrite rtruthy_const.
            destruct OP as [->| ->]; [rewrite (T1 eq_refl)|rewrite (T2 eq_refl)]; reflexivity. }
          destruct op; try (apply Ok_inj in F; subst e'; now apply no_const).
          -- apply Ok_inj in F. subst e'. destruct (is_truthy lv) eqn:T.
             ++ apply LEFT; [now right|discriminate|reflexivity].
             ++ apply no_const; [exact Gr|]. apply (RIGHT (or_intror eq_refl) lv EL); [discriminate|auto].
          -- apply Ok_inj in F. subst e'. destruct (is_truthy lv) eqn:T.
             ++ apply no_const; [exact Gr|]. apply (RIGHT (or_introl eq_refl) lv EL); [auto|discriminate].
             ++ apply LEFT; [now left|reflexivity|discriminate].
      + apply Ok_inj in F. subst e'. now apply no_const.
    - destruct (fold_list (fold_expr longer lang) args) as [args'|] eqn:FL; [|discriminate F]. cbn [bind] in F.
      destruct (list_ok true args IH S (spread_call _ _ _ N) args' FL) as (C & _ & E).
      assert (SE : same many (ECall f args) (ECall f args')).
      { apply same_eval. intros s. cbn [eval]. now rewrite E. }
      destruct (get_consts args') as [vs|] eqn:G.
      + destruct (consts_eval args' C vs G) as [V EV].
        destruct (const_call lang f vs) as [c|] eqn:U; [|discriminate F]. cbn [bind] in F. apply Ok_inj in F. subst e'.
        destruct c as [c|]; [|now apply no_const].
        apply call_sound in U; [|exact V].
        apply set_const_ok; [eapply call_value; [exact V|exact U]| |exact SE].
        intros s. cbn [eval]. rewrite EV. apply (OC f vs c s V U).
      + apply Ok_inj in F. subst e'. now apply no_const.
    - contradiction.
  Qed.
End correct.

(** Folding fails (with an endless recursion) only when it meets a shift or rotation. *)
Lemma binary_total lang op a b : value_of lang a -> value_of lang b ->
  (exists r, const_binary op a b = Ok r) \/
  ((op = BShl \/ op = BShr \/ op = BLshr \/ op = BRotl \/ op = BRotr) /\
   number lang b (- 2 ^ (width lang - 1))).
Proof.
  intros A B.
  assert (SH : forall o, (exists r, lua_shift recursion_limit o a b = Ok r) \/ number lang b (- 2 ^ (width lang - 1))).
  { intros o. destruct limit_SS as [f R]. rewrite R. clear R.
    destruct a as [| |x|x|]; try (left; eexists; reflexivity);
      destruct b as [| |y|y|]; try (left; eexists; reflexivity).
    - destruct A as [u U], B as [v V]. pose proof (fix_inv _ _ _ U) as ->. pose proof U as [WU EU]. pose proof V as [WV EV].
      destruct (Z.eq_dec v (- 2 ^ 31)) as [->|N]; [right; exact V|]. left. rewrite EU, EV. now apply shift_total.
    - destruct B as [v V]. destruct lang; [destruct V as [_ K]; discriminate K|]. pose proof V as [WV EV].
      destruct (Z.eq_dec v (- 2 ^ 63)) as [->|N]; [right; exact V|]. left. rewrite EV. now apply ishift_total. }
  destruct op; cbn [const_binary]; try (left; eexists; reflexivity);
    match goal with |- context [lua_shift _ ?o _ _] => destruct (SH o) as [K|K] end; auto 10.
Qed.

(** Expressions without shifts and rotations. *)
Definition shift_op (op : binop) : bool :=
  match op with BShl | BShr | BLshr | BRotl | BRotr => true | _ => false end.
Definition shift_fun (f : cfun) : bool := match f with FShl | FShr | FLshr | FRotl | FRotr => true | _ => false end.
Fixpoint no_shift (e : expr) : Prop :=
  match e with
  | EConst _ | EWorse _ _ => True
  | EGroup e | EUn _ e => no_shift e
  | EBin op l r => shift_op op = false /\ no_shift l /\ no_shift r
  | ECall f args => shift_fun f = false /\
      (fix all (l : list expr) : Prop := match l with [] => True | x :: l => no_shift x /\ all l end) args
  | EOther _ _ _ args =>
      (fix all (l : list expr) : Prop := match l with [] => True | x :: l => no_shift x /\ all l end) args
  end.
Lemma fold_total longer lang e : no_shift e -> exists e', fold_expr longer lang e = Ok e'.
Proof.
  assert (LT : forall args, Forall (fun e => no_shift e -> exists e', fold_expr longer lang e = Ok e') args ->
    (fix all (l : list expr) : Prop := match l with [] => True | x :: l => no_shift x /\ all l end) args ->
    exists l, fold_list (fold_expr longer lang) args = Ok l).
  { intros args H. induction H as [|x l HX HL IH]; intros N; [eexists; reflexivity|].
    destruct N as [NX N]. cbn [fold_list]. destruct (HX NX) as [x' ->]. destruct (IH N) as [l' ->]. eexists. reflexivity. }
  induction e as [v|id mu ex args IH|e IH|op e IH|op l r IHl IHr|f args IH|v e IH] using expr_ind';
    intros N; cbn [fold_expr no_shift] in *; try (eexists; reflexivity).
  - destruct (LT args IH N) as [l ->]. eexists. reflexivity.
  - destruct (IH N) as [x ->]. eexists. reflexivity.
  - destruct (IH N) as [x ->]. cbn [bind]. destruct (get_const x); eexists; reflexivity.
  - destruct N as (O & Nl & Nr). destruct (IHl Nl) as [l' ->], (IHr Nr) as [r' ->]. cbn [bind].
    destruct (get_const l') as [lv|]; [|eexists; reflexivity]. destruct (get_const r') as [rv|].
    + destruct op; try discriminate O; eexists; reflexivity.
    + destruct op; try discriminate O; eexists; reflexivity.
  - destruct N as (O & N). destruct (LT args IH N) as [l ->]. cbn [bind].
    destruct (get_consts l) as [vs|]; [|eexists; reflexivity].
    assert (K : exists c, const_call lang f vs = Ok c); [|destruct K as [c ->]; eexists; reflexivity].
    unfold const_call. destruct (_ && _); [eexists; reflexivity|].
    destruct f; try discriminate O; destruct vs as [|a [|b [|d [|e vs]]]]; eexists; reflexivity.
Qed.
