(** Lemmas: what the tool makes of comments is what they say. *)
From Coq Require Import String.
From Coq Require Import List ZArith Bool Lia.
From Verif Require Import M_Base L_Util M_Fold M_Token S_Token M_Expr M_Hints S_Gap S_Hints L_Token.
Import ListNotations.
Open Scope list_scope.
Open Scope Z_scope.

Lemma last_snoc {X} (gives : comment -> X -> Prop) cs c o o' : last_gives gives cs o ->
  (forall x, gives c x -> o' = Some x) -> ((forall x, ~ gives c x) -> o' = o) -> ((exists x, gives c x) \/ forall x, ~ gives c x) -> last_gives gives (cs ++ [c]) o'.
Proof.
  intros L Y N [[x G]|G].
  - rewrite (Y x G). exists cs, c, []. split; [reflexivity|]. split; [exact G|]. intros ? ? [].
  - rewrite (N G). destruct o as [x|]; cbn [last_gives] in *.
    + destruct L as (a & d & b & -> & A & B). exists a, d, (b ++ [c]). rewrite <- app_assoc. split; [reflexivity|]. split; [exact A|].
      intros c' x' I. apply in_app_or in I as [I|[<-|[]]]; [now apply B|apply G].
    + intros d x I. apply in_app_or in I as [I|[<-|[]]]; [now apply L|apply G].
Qed.

Lemma pre_iff x s : pre x s = true <-> exists r, s = asc x ++ r.
Proof. apply is_prefix_iff. Qed.
Lemma is_text_iff s x : is_text s x = true <-> s = asc x.
Proof. apply zeqb_list_true. Qed.

(** the text without the "$" *)
Definition bare (t : list Z) : list Z := if pre "$" t then skipn 1 t else t.
Lemma says_bare b t x : hd 0 x <> 36 -> says (b, t) x <-> bare t = x.
Proof.
  intros H. unfold says, bare. cbn [snd]. destruct (pre "$" t) eqn:P.
  - apply pre_iff in P as [r ->]. change (asc "$" ++ r) with (36 :: r). cbn [skipn]. split.
    + intros [<-|[= ->]]; [now cbn in H|reflexivity].
    + intros ->. now right.
  - split; [|auto]. intros [E|E]; [exact E|]. assert (K : pre "$" t = true) by (apply pre_iff; exists x; exact E). congruence.
Qed.

Section Hints.
Context (isspace : Z -> bool) (SP : ascii_isspace isspace).
Notation is_sep := (is_sep isspace).
Notation words := (words isspace).
Notation words_are := (words_are isspace).
Lemma sep_iff c : is_sep c = true <-> sep isspace c.
Proof. unfold M_Hints.is_sep, sep. rewrite orb_true_iff, Z.eqb_eq. reflexivity. Qed.
Lemma sep_no c : is_sep c = false <-> ~ sep isspace c.
Proof. rewrite <- sep_iff. destruct (is_sep c); split; congruence. Qed.
Lemma sep_cons c s ws : sep isspace c -> words_are s ws -> words_are (c :: s) ws.
Proof.
  intros C W. inversion W as [? F|g w rest ws' F N P R W']; subst.
  - constructor. now constructor.
  - change (c :: g ++ w ++ rest) with ((c :: g) ++ w ++ rest). constructor; auto.
Qed.
Lemma words_ok : forall s cur, Forall (fun c => ~ sep isspace c) cur -> words_are (cur ++ s) (words cur s).
Proof.
  induction s as [|c s IH]; intros cur F; cbn [M_Hints.words].
  - destruct cur as [|x cur]; [constructor; constructor|]. cbn [flush]. rewrite app_nil_r, <- (app_nil_r (x :: cur)) at 1.
    apply (a_word isspace [] (x :: cur) []); [constructor|easy|exact F|easy|constructor; constructor].
  - destruct (is_sep c) eqn:C.
    + apply sep_iff in C. assert (W : words_are (c :: s) (words [] s)) by (apply sep_cons; [exact C|exact (IH [] (Forall_nil _))]).
      destruct cur as [|x cur]; [exact W|]. cbn [flush]. apply (a_word isspace [] (x :: cur) (c :: s)); [constructor|easy|exact F|intros ? ? [= <- _]; exact C|exact W].
    + apply sep_no in C. replace (cur ++ c :: s) with ((cur ++ [c]) ++ s) by now rewrite <- app_assoc. apply IH. apply Forall_app. auto.
Qed.
Lemma words_skip g s : Forall (sep isspace) g -> words [] (g ++ s) = words [] s.
Proof. induction 1 as [|c g C F IH]; [reflexivity|]. cbn [app M_Hints.words]. apply sep_iff in C. now rewrite C. Qed.
Lemma words_take w : forall cur rest, Forall (fun c => ~ sep isspace c) w -> (forall c r, rest = c :: r -> sep isspace c) -> cur ++ w <> [] ->
  words cur (w ++ rest) = (cur ++ w) :: words [] rest.
Proof.
  induction w as [|c w IH]; intros cur rest F R N; cbn [app].
  - rewrite app_nil_r in *. destruct rest as [|c r]; cbn [M_Hints.words]; [destruct cur; [easy|reflexivity]|].
    rewrite (proj2 (sep_iff c) (R c r eq_refl)). destruct cur; [easy|reflexivity].
  - inversion F as [|? ? C F']; subst. cbn [M_Hints.words]. rewrite (proj2 (sep_no c) C), IH by (auto; rewrite <- app_assoc; now destruct cur). now rewrite <- app_assoc.
Qed.
Lemma words_det s ws : words_are s ws -> words [] s = ws.
Proof.
  induction 1 as [s F|g w rest ws G N F R W IH].
  - rewrite <- (app_nil_r s). now rewrite words_skip.
  - rewrite words_skip, words_take, IH by assumption. reflexivity.
Qed.
Lemma words_iff s ws : words_are s ws <-> words [] s = ws.
Proof. split; [apply words_det|]. intros <-. apply (words_ok s [] (Forall_nil _)). Qed.

(** the hints that are lists *)
Definition hint_at (c : list Z) : option hint :=
  if pre "lint:" c then Some (HLint (words [] (str_after_first c (asc ":"))))
  else if pre "preserve:" c then Some (HPreserve (words [] (str_after_first c (asc ":"))))
  else if pre "keep:" c then Some HKeep else None.
Lemma hint_at_ok b t h : hint_of isspace (b, t) h <-> hint_at (bare t) = Some h.
Proof.
  unfold hint_at. split.
  - intros [rest ws S W|rest ws S W|rest S]; apply says_bare in S; try discriminate; rewrite S; [apply words_det in W; subst; reflexivity..|reflexivity].
  - destruct (pre "lint:" (bare t)) eqn:P1.
    { intros [= <-]. apply pre_iff in P1 as [r E]. rewrite E. change (str_after_first (asc "lint:" ++ r) (asc ":")) with r.
      apply is_lint with (rest := r); [apply says_bare; [discriminate|exact E]|now apply words_iff]. }
    destruct (pre "preserve:" (bare t)) eqn:P2.
    { intros [= <-]. apply pre_iff in P2 as [r E]. rewrite E. change (str_after_first (asc "preserve:" ++ r) (asc ":")) with r.
      apply is_preserve with (rest := r); [apply says_bare; [discriminate|exact E]|now apply words_iff]. }
    destruct (pre "keep:" (bare t)) eqn:P3; [|discriminate].
    intros [= <-]. apply pre_iff in P3 as [r E]. apply is_keep with (rest := r). apply says_bare; [discriminate|exact E].
Qed.

(** ** One comment *)
Lemma funcs_rest ws : forall m, let m' := lint_funcs ws m in
  m_var m' = m_var m /\ m_keys m' = m_keys m /\ m_const m' = m_const m /\ m_merge m' = m_merge m /\ m_safe m' = m_safe m /\ m_rename m' = m_rename m /\ m_comments m' = m_comments m.
Proof.
  induction ws as [|w ws IH]; intros m; cbv zeta; [repeat split|]. unfold lint_funcs. cbn [fold_left]. specialize (IH (if pre "func::" w then set_func m (str_after_first w (asc "::")) else m)).
  cbv zeta in IH. unfold lint_funcs in IH. destruct IH as (A & B & C & D & E & F & G). rewrite A, B, C, D, E, F, G. destruct (pre "func::" w); repeat split.
Qed.
Lemma funcs_last ws : forall m,
  (exists a f b, ws = a ++ (asc "func::" ++ f) :: b /\ (forall f', ~ In (asc "func::" ++ f') b) /\ m_func (lint_funcs ws m) = Some f) \/
  ((forall f', ~ In (asc "func::" ++ f') ws) /\ m_func (lint_funcs ws m) = m_func m).
Proof.
  induction ws as [|w ws IH] using rev_ind; intros m; [right; split; [intros ? []|reflexivity]|].
  unfold lint_funcs. rewrite fold_left_app. cbn [fold_left]. change (fold_left _ ws m) with (lint_funcs ws m). destruct (pre "func::" w) eqn:P.
  - left. apply pre_iff in P as [f ->]. exists ws, f, []. repeat split. intros f' [].
  - assert (N : forall f, w <> asc "func::" ++ f) by (intros f E; assert (K : pre "func::" w = true) by (apply pre_iff; eauto); congruence).
    destruct (IH m) as [(a & f & b & -> & A & B)|[A B]]; [left|right].
    + exists a, f, (b ++ [w]). rewrite <- app_assoc. split; [reflexivity|]. split; [|exact B]. intros f' I. apply in_app_or in I as [I|[I|[]]]; [now apply (A f')|now apply (N f')].
    + split; [|exact B]. intros f' I. apply in_app_or in I as [I|[I|[]]]; [now apply (A f')|now apply (N f')].
Qed.
Lemma func_unique (a b a' b' : list (list Z)) f f' : a ++ (asc "func::" ++ f) :: b = a' ++ (asc "func::" ++ f') :: b' ->
  (forall f, ~ In (asc "func::" ++ f) b) -> (forall f, ~ In (asc "func::" ++ f) b') -> f = f'.
Proof.
  revert a'. induction a as [|x a IH]; intros [|y a'] E N N'; cbn [app] in E.
  - assert (K : asc "func::" ++ f = asc "func::" ++ f') by (injection E; intros; congruence). now apply app_inv_head in K.
  - exfalso. injection E as _ E. apply (N f'). rewrite E. apply in_or_app. right. now left.
  - exfalso. injection E as _ E. apply (N' f). rewrite <- E. apply in_or_app. right. now left.
  - injection E as _ E. eapply IH; eauto.
Qed.

Notation process := (process_comment isspace).
Lemma process_eq b t m : process b t m =
  let c := bare t in
  match hint_at c with
  | Some (HLint ws) => add_comment (lint_funcs ws m) (HLint ws)
  | Some h => add_comment m h
  | None => if (pre "dynamic-include:" c && pre "$" t) || ((pre "def-alias:" c && pre "$" t) || pre "deflanguage:" c) || (pre "switch-compiler:" c && pre "$" t) then m
            else if b then block_hint isspace c m else m
  end.
Proof.
  unfold process_comment, hint_at. cbv zeta. fold (bare t). destruct (pre "lint:" (bare t)); [reflexivity|]. destruct (pre "preserve:" (bare t)); [reflexivity|].
  destruct (pre "keep:" (bare t)); [reflexivity|]. destruct (pre "dynamic-include:" (bare t) && pre "$" t); [reflexivity|].
  destruct (pre "def-alias:" (bare t) && pre "$" t || pre "deflanguage:" (bare t)); [reflexivity|]. destruct (pre "switch-compiler:" (bare t) && pre "$" t); reflexivity.
Qed.
(** [c] is a word that is no beginning of another hint *)
Definition a_block (c : list Z) : Prop := hint_at c = None /\ pre "dynamic-include:" c = false /\ pre "def-alias:" c = false /\ pre "deflanguage:" c = false /\ pre "switch-compiler:" c = false.
Lemma process_block t m : a_block (bare t) -> process true t m = block_hint isspace (bare t) m.
Proof. intros (A & B & C & D & E). rewrite process_eq. cbv zeta. now rewrite A, B, C, D, E. Qed.

(** what is left alone by a comment that is not a hint of this kind *)
Lemma process_other b t m : let m' := process b t m in
  m' = m \/ (exists h, hint_at (bare t) = Some h /\ m' = add_comment (match h with HLint ws => lint_funcs ws m | _ => m end) h) \/ (b = true /\ hint_at (bare t) = None /\ m' = block_hint isspace (bare t) m).
Proof.
  cbv zeta. rewrite process_eq. cbv zeta. destruct (hint_at (bare t)) as [h|]; [right; left; exists h; split; [reflexivity|]; now destruct h|].
  destruct (_ || _); [now left|]. destruct b; [right; right; auto|now left].
Qed.

(** reads the tests of [block_hint] *)
Ltac tests :=
  unfold block_hint;
  repeat match goal with |- context [if ?x then _ else _] => destruct x eqn:? end.
Ltac known :=
  repeat match goal with
  | H : (_ || _) = true |- _ => apply orb_prop in H as [H|H]
  | H : is_text _ _ = true |- _ => apply is_text_iff in H
  end.

Lemma block_says_iff b t x : hd 0 (asc x) <> 36 -> block_says (b, t) (asc x) <-> b = true /\ bare t = asc x.
Proof. intros H. unfold block_says. cbn [fst]. now rewrite says_bare. Qed.
Ltac unsay := repeat match goal with H : block_says (_, _) _ |- _ => apply block_says_iff in H; [|discriminate]; destruct H as [-> H] end.

Ltac yes := rewrite process_block; [match goal with E : bare _ = _ |- _ => rewrite E; reflexivity end|match goal with E : bare _ = _ |- _ => rewrite E; repeat split end].
Ltac others :=
  match goal with |- ?f (process_comment _ ?b ?t ?m) = _ =>
    destruct (process_other b t m) as [->|[(h & _ & ->)|(-> & _ & ->)]];
      [reflexivity|destruct h; try reflexivity; cbn [m_var m_keys m_const m_merge m_safe m_rename add_comment]; match goal with |- context [lint_funcs ?ws ?m] => destruct (funcs_rest ws m) as (? & ? & ? & ? & ? & ? & ?); assumption end|];
      tests; try reflexivity; known; exfalso
  end.
Ltac said_so :=
  match goal with E : bare _ = asc ?x |- block_says _ (asc ?y) => unify y x; apply block_says_iff; [discriminate|split; [reflexivity|exact E]] end.
Lemma dec_text (t : list Z) x : bare t = asc x \/ bare t <> asc x.
Proof. destruct (is_text (bare t) x) eqn:E; [left; now apply is_text_iff|right; intros K; apply is_text_iff in K; congruence]. Qed.
Lemma dec_any (b : bool) (t : list Z) l : (b = true /\ exists x, In x l /\ bare t = asc x) \/ ~ (b = true /\ exists x, In x l /\ bare t = asc x).
Proof.
  destruct b; [|right; intros [K _]; discriminate]. induction l as [|x l [IH|IH]].
  - right. intros [_ (x & [] & _)].
  - left. split; [reflexivity|]. destruct IH as (_ & y & I & E). exists y. split; [now right|exact E].
  - destruct (dec_text t x) as [E|E]; [left; split; [reflexivity|]; exists x; split; [now left|exact E]|].
    right. intros (_ & y & [<-|I] & K); [contradiction|]. apply IH. split; [reflexivity|eauto].
Qed.

Lemma var_step b t m cs : last_gives gives_var cs (m_var m) -> last_gives gives_var (cs ++ [(b, t)]) (m_var (process b t m)).
Proof.
  intros L. apply (last_snoc _ _ _ _ _ L).
  - intros k [x S I|x S I|x S I]; cbn in I; destruct I as [<-|[<-|[]]]; unsay; yes.
  - intros N. others.
    1,2: eapply N; eapply var_global; [said_so|cbn; tauto].
    1,2: eapply N; eapply var_member; [said_so|cbn; tauto].
    1,2: eapply N; eapply var_preserve; [said_so|cbn; tauto].
  - destruct (dec_any b t ["global"; "nameof"; "member"; "memberof"; "preserve"; "string"]%string) as [(-> & x & I & E)|D].
    + left. cbn in I. decompose [or] I; subst; try contradiction.
      1,2: eexists; eapply var_global; [said_so|cbn; tauto].
      1,2: eexists; eapply var_member; [said_so|cbn; tauto].
      1,2: eexists; eapply var_preserve; [said_so|cbn; tauto].
    + right. intros k [x S I|x S I|x S I]; cbn in I; destruct I as [<-|[<-|[]]]; unsay; apply D; split; try reflexivity; eexists; (split; [|eassumption]); cbn; tauto.
Qed.
Lemma keys_step b t m cs : last_gives gives_keys cs (m_keys m) -> last_gives gives_keys (cs ++ [(b, t)]) (m_keys (process b t m)).
Proof.
  intros L. apply (last_snoc _ _ _ _ _ L).
  - intros k [S|S|x S I]; [| |cbn in I; destruct I as [<-|[<-|[]]]]; unsay; yes.
  - intros N. others.
    + eapply N; eapply keys_global; said_so.
    + eapply N; eapply keys_member; said_so.
    + eapply N; eapply keys_preserve; [said_so|cbn; tauto].
    + eapply N; eapply keys_preserve; [said_so|cbn; tauto].
  - destruct (dec_any b t ["global-keys"; "member-keys"; "preserve-keys"; "string-keys"]%string) as [(-> & x & I & E)|D].
    + left. cbn in I. decompose [or] I; subst; try contradiction.
      * eexists; eapply keys_global; said_so.
      * eexists; eapply keys_member; said_so.
      * eexists; eapply keys_preserve; [said_so|cbn; tauto].
      * eexists; eapply keys_preserve; [said_so|cbn; tauto].
    + right. intros k [S|S|x S I]; [| |cbn in I; destruct I as [<-|[<-|[]]]]; unsay; apply D; split; try reflexivity; eexists; (split; [|eassumption]); cbn; tauto.
Qed.
Lemma const_step b t m cs : last_gives gives_const cs (m_const m) -> last_gives gives_const (cs ++ [(b, t)]) (m_const (process b t m)).
Proof.
  intros L. apply (last_snoc _ _ _ _ _ L).
  - intros k [S|S]; unsay; yes.
  - intros N. others; eapply N; [eapply const_yes|eapply const_no]; said_so.
  - destruct (dec_any b t ["const"; "non-const"]%string) as [(-> & x & I & E)|D].
    + left. cbn in I. decompose [or] I; subst; try contradiction; eexists; [eapply const_yes|eapply const_no]; said_so.
    + right. intros k [S|S]; unsay; apply D; split; try reflexivity; eexists; (split; [|eassumption]); cbn; tauto.
Qed.
Lemma merge_step b t m cs : last_gives gives_merge cs (m_merge m) -> last_gives gives_merge (cs ++ [(b, t)]) (m_merge (process b t m)).
Proof.
  intros L. apply (last_snoc _ _ _ _ _ L).
  - intros k [S]; unsay; yes.
  - intros N. others; eapply N; eapply merge_no; said_so.
  - destruct (dec_any b t ["no-merge"]%string) as [(-> & x & I & E)|D].
    + left. cbn in I. decompose [or] I; subst; try contradiction; eexists; eapply merge_no; said_so.
    + right. intros k [S]; unsay; apply D; split; try reflexivity; eexists; (split; [|eassumption]); cbn; tauto.
Qed.
Lemma safe_step b t m cs : last_gives gives_safe cs (m_safe m) -> last_gives gives_safe (cs ++ [(b, t)]) (m_safe (process b t m)).
Proof.
  intros L. apply (last_snoc _ _ _ _ _ L).
  - intros k [S]; unsay; yes.
  - intros N. others; eapply N; eapply safe_yes; said_so.
  - destruct (dec_any b t ["force-safe"]%string) as [(-> & x & I & E)|D].
    + left. cbn in I. decompose [or] I; subst; try contradiction; eexists; eapply safe_yes; said_so.
    + right. intros k [S]; unsay; apply D; split; try reflexivity; eexists; (split; [|eassumption]); cbn; tauto.
Qed.
Lemma rename_says b t n : block_says (b, t) (asc "rename::" ++ n) <-> b = true /\ bare t = asc "rename::" ++ n.
Proof. unfold block_says. cbn [fst]. rewrite says_bare by discriminate. reflexivity. Qed.
Lemma rename_space n : existsb isspace (asc "rename::" ++ n) = existsb isspace n.
Proof. rewrite existsb_app. replace (existsb isspace (asc "rename::")) with false; [reflexivity|]. cbn. rewrite !SP by lia. reflexivity. Qed.
Lemma no_space n : existsb isspace n = false <-> Forall (fun x => isspace x = false) n.
Proof.
  rewrite Forall_forall. split; intros H.
  - intros x I. destruct (isspace x) eqn:E; [|reflexivity]. assert (K : existsb isspace n = true) by (apply existsb_exists; eauto). congruence.
  - destruct (existsb isspace n) eqn:E; [|reflexivity]. apply existsb_exists in E as (x & I & E). rewrite (H x I) in E. discriminate.
Qed.
Lemma rename_block n m : Forall (fun x => isspace x = false) n -> block_hint isspace (asc "rename::" ++ n) m = set_rename m n.
Proof.
  intros F. apply no_space in F. unfold block_hint.
  change (pre "language::" (asc "rename::" ++ n)) with false. change (pre "rename::" (asc "rename::" ++ n)) with (pre "rename::" (asc "rename::" ++ n)).
  rewrite (proj2 (pre_iff "rename::" (asc "rename::" ++ n)) ltac:(now exists n)). rewrite rename_space, F. reflexivity.
Qed.
Lemma rename_step b t m cs : last_gives (gives_rename isspace) cs (m_rename m) -> last_gives (gives_rename isspace) (cs ++ [(b, t)]) (m_rename (process b t m)).
Proof.
  intros L. apply (last_snoc _ _ _ _ _ L).
  - intros k [n S F]. apply rename_says in S as [-> S]. rewrite process_block; [rewrite S, rename_block by exact F; reflexivity|rewrite S; repeat split].
  - intros N. others. match goal with H : _ && _ = true |- _ => apply andb_prop in H as [A B] end. apply pre_iff in A as [n E]. apply (N n).
    constructor; [now apply rename_says|]. rewrite E, rename_space, negb_true_iff in B. now apply no_space.
  - destruct b; [|right; intros x [n S _]; apply rename_says in S as [K _]; discriminate].
    destruct (pre "rename::" (bare t)) eqn:P.
    + apply pre_iff in P as [n E]. destruct (existsb isspace n) eqn:X.
      * right. intros x [n' S F]. apply rename_says in S as [_ S]. rewrite E in S. apply app_inv_head in S. subst n'. apply no_space in F. congruence.
      * left. exists n. constructor; [now apply rename_says|now apply no_space].
    + right. intros x [n S _]. apply rename_says in S as [_ S]. assert (K : pre "rename::" (bare t) = true) by (apply pre_iff; eauto). congruence.
Qed.
Lemma func_step b t m cs : last_gives (gives_func isspace) cs (m_func m) -> last_gives (gives_func isspace) (cs ++ [(b, t)]) (m_func (process b t m)).
Proof.
  intros L. apply (last_snoc _ _ _ _ _ L).
  - intros x [a f c H N]. apply hint_at_ok in H. destruct (process_other b t m) as [E|[(h & E & ->)|(_ & E & _)]]; [| |congruence].
    + rewrite process_eq in *. cbv zeta in *. rewrite H in *. exfalso. apply (f_equal (fun m => length (m_comments m))) in E. cbn [m_comments add_comment] in E.
      rewrite app_length in E. destruct (funcs_rest (a ++ (asc "func::" ++ f) :: c) m) as (_ & _ & _ & _ & _ & _ & K). rewrite K in E. cbn in E. lia.
    + rewrite H in E. injection E as <-. cbn [m_func add_comment]. destruct (funcs_last (a ++ (asc "func::" ++ f) :: c) m) as [(a' & f' & c' & K & N' & Q)|[K _]].
      * etransitivity; [exact Q|]. f_equal. symmetry. eapply func_unique; eassumption.
      * exfalso. apply (K f). apply in_or_app. right. now left.
  - intros N. destruct (process_other b t m) as [->|[(h & E & ->)|(-> & _ & ->)]]; [reflexivity| |].
    + destruct h as [ws|ws|]; try reflexivity. cbn [m_func add_comment]. destruct (funcs_last ws m) as [(a & f & c & -> & N' & _)|[_ K]]; [|exact K].
      exfalso. apply (N f). apply func_word with (a := a) (b := c); [now apply hint_at_ok|exact N'].
    + tests; reflexivity.
  - destruct (hint_at (bare t)) as [[ws|ws|]|] eqn:E.
    + destruct (funcs_last ws m) as [(a & f & c & -> & N' & _)|[N' _]].
      * left. exists f. apply func_word with (a := a) (b := c); [now apply hint_at_ok|exact N'].
      * right. intros x [a f c H _]. apply hint_at_ok in H. rewrite E in H. injection H as ->. apply (N' f). apply in_or_app. right. now left.
    + right. intros x [a f c H _]. apply hint_at_ok in H. congruence.
    + right. intros x [a f c H _]. apply hint_at_ok in H. congruence.
    + right. intros x [a f c H _]. apply hint_at_ok in H. congruence.
Qed.
Lemma hints_step b t m cs : hints_are isspace cs (m_comments m) -> hints_are isspace (cs ++ [(b, t)]) (m_comments (process b t m)).
Proof.
  intros L. destruct (hint_at (bare t)) as [h|] eqn:E.
  - replace (m_comments (process b t m)) with (m_comments m ++ [h]); [apply hints_one; [exact L|now apply hint_at_ok]|].
    rewrite process_eq. cbv zeta. rewrite E. destruct h as [ws|ws|]; try reflexivity. cbn [m_comments add_comment]. now destruct (funcs_rest ws m) as (_ & _ & _ & _ & _ & _ & ->).
  - replace (m_comments (process b t m)) with (m_comments m); [apply hints_skip; [exact L|]; intros h H; apply hint_at_ok in H; congruence|].
    destruct (process_other b t m) as [->|[(h & K & _)|(-> & _ & ->)]]; [reflexivity|congruence|]. tests; reflexivity.
Qed.
Lemma said_step b t m cs : said isspace cs m -> said isspace (cs ++ [(b, t)]) (process b t m).
Proof.
  intros [A B C D E F G H]. constructor; [apply var_step|apply keys_step|apply const_step|apply merge_step|apply safe_step|apply rename_step|apply func_step|apply hints_step]; assumption.
Qed.
Lemma said_none : said isspace [] no_mods.
Proof. constructor; cbn; try (intros ? ? []). constructor. Qed.

(** The line break of a line comment makes no difference. *)
Lemma words_break : forall s cur, words cur (s ++ [10]) = words cur s.
Proof.
  assert (S10 : is_sep 10 = true) by (unfold M_Hints.is_sep; now rewrite SP by lia).
  induction s as [|c s IH]; intros cur; cbn [app M_Hints.words]; [now rewrite S10; cbn; destruct cur|]. destruct (is_sep c); now rewrite IH.
Qed.
Lemma pre_break x t : ~ In 10 (asc x) -> pre x (t ++ [10]) = pre x t.
Proof.
  intros N. destruct (pre x t) eqn:P.
  - apply pre_iff in P as [r ->]. apply pre_iff. exists (r ++ [10]). now rewrite app_assoc.
  - destruct (pre x (t ++ [10])) eqn:Q; [|reflexivity]. apply pre_iff in Q as [r E]. destruct r as [|y r] using rev_ind.
    + rewrite app_nil_r in E. exfalso. apply N. rewrite <- E. apply in_or_app. right. now left.
    + rewrite app_assoc in E. apply app_inj_tail in E as [-> _]. assert (K : pre x (asc x ++ r) = true) by (apply pre_iff; now exists r). congruence.
Qed.
Lemma bare_break t : bare (t ++ [10]) = bare t ++ [10].
Proof.
  unfold bare. rewrite pre_break by (cbn; lia). destruct (pre "$" t) eqn:P; [|reflexivity]. apply pre_iff in P as [r ->]. reflexivity.
Qed.
Lemma process_break t m : process false (t ++ [10]) m = process false t m.
Proof.
  rewrite !process_eq. cbv zeta. rewrite bare_break. unfold hint_at. rewrite !pre_break by (cbn; lia).
  destruct (pre "lint:" (bare t)) eqn:P1.
  { apply pre_iff in P1 as [r ->]. rewrite <- app_assoc. change (str_after_first (asc "lint:" ++ r ++ [10]) (asc ":")) with (r ++ [10]). rewrite words_break. reflexivity. }
  destruct (pre "preserve:" (bare t)) eqn:P2; [|reflexivity].
  apply pre_iff in P2 as [r ->]. rewrite <- app_assoc. change (str_after_first (asc "preserve:" ++ r ++ [10]) (asc ":")) with (r ++ [10]). rewrite words_break. reflexivity.
Qed.
End Hints.
