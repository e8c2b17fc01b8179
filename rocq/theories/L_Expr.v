(** Lemmas on the expression parser. *)
From Coq Require Import String List ZArith Lia Bool.
From Verif Require Import M_Base L_Util M_Fold M_Token M_Expr S_Expr.
Import ListNotations.
Open Scope Z_scope.

Scheme expr_mut := Induction for expr Sort Prop
  with exprs_mut := Induction for exprs Sort Prop
  with items_mut := Induction for items Sort Prop.
Combined Scheme expr_all from expr_mut, exprs_mut, items_mut.

(* ------------------------------------------------------------------ *)
(** * The tables *)
Lemma zeqb_sound a b : zeqb_list a b = true <-> a = b.
Proof. split; [apply zeqb_list_true|intros ->; apply zeqb_list_refl]. Qed.
Lemma zeqb_neq a b : zeqb_list a b = false <-> a <> b.
Proof. destruct (zeqb_list a b) eqn:E; split; try easy; [apply zeqb_sound in E; easy|intros _ H; apply zeqb_sound in H; congruence]. Qed.
Lemma existsb_in v l : existsb (zeqb_list v) l = true <-> In v l.
Proof.
  rewrite existsb_exists. split; [intros (x & I & E); apply zeqb_sound in E; now subst|intros I; exists v; split; [easy|apply zeqb_list_refl]].
Qed.
Lemma prec_get_in l v p : prec_get l v = Some p -> In (v, p) l.
Proof.
  induction l as [|(k, q) l IH]; [easy|]. cbn. destruct (zeqb_list k v) eqn:E; [apply zeqb_sound in E; intros [= ->]; subst; now left|].
  intros H. right. now apply IH.
Qed.

Lemma prec_levels : forallb (fun '(v, p) => (1 <=? p) && match nth_error levels (Z.to_nat p - 1) with
    | Some ops => existsb (fun s => zeqb_list v (asc s)) ops | None => false end) k_binary_op_precs = true.
Proof. vm_compute. reflexivity. Qed.
Lemma levels_prec : forallb (fun k => match nth_error levels (k - 1) with
    | Some ops => forallb (fun s => match binary_prec (asc s) with Some p => p =? Z.of_nat k | None => false end) ops | None => true end) (seq 1 12) = true.
Proof. vm_compute. reflexivity. Qed.
Lemma level_prec op k : level_of op k <-> binary_prec op = Some (Z.of_nat k).
Proof.
  split.
  - intros (ops & s & N & I & -> & Hk).
    assert (Hk2 : (k <= 12)%nat). { assert (k - 1 < length levels)%nat by (apply nth_error_Some; congruence). cbn in *. lia. }
    pose proof levels_prec as L. rewrite forallb_forall in L. specialize (L k ltac:(apply in_seq; lia)). rewrite N in L.
    rewrite forallb_forall in L. specialize (L s I). destruct (binary_prec (asc s)); [|discriminate L]. f_equal. lia.
  - intros E. apply prec_get_in in E. pose proof prec_levels as L. rewrite forallb_forall in L. specialize (L _ E). cbn beta iota in L.
    rewrite Nat2Z.id in L. apply andb_prop in L as (L1 & L). destruct (nth_error levels (k - 1)) as [ops|] eqn:N; [|discriminate L].
    apply existsb_exists in L as (s & I & Es). apply zeqb_sound in Es. subst. exists ops, s. repeat split; auto. lia.
Qed.
Lemma prec_nat op p : binary_prec op = Some p -> exists k, p = Z.of_nat k /\ level_of op k.
Proof.
  intros E. assert (0 <= p).
  { pose proof E as E'. apply prec_get_in in E'. pose proof prec_levels as L. rewrite forallb_forall in L. specialize (L _ E'). cbn beta iota in L. lia. }
  exists (Z.to_nat p). split; [lia|]. apply level_prec. rewrite E. f_equal. lia.
Qed.
Lemma level_unique op k k' : level_of op k -> level_of op k' -> k = k'.
Proof. rewrite !level_prec. intros E E'. rewrite E in E'. injection E'. lia. Qed.
Lemma level_range op k : level_of op k -> (1 <= k <= 12)%nat /\ k <> 11%nat.
Proof.
  intros (ops & s & N & I & -> & Hk). assert (k - 1 < length levels)%nat by (apply nth_error_Some; congruence). cbn in H.
  split; [lia|]. intros ->. cbn in N. injection N as <-. easy.
Qed.
Lemma right_spec op : right_binary op = true <-> right_assoc op.
Proof. unfold right_binary, right_assoc. rewrite orb_true_iff, !zeqb_sound. tauto. Qed.
Lemma right_level op k : level_of op k -> (right_assoc op <-> k = 8%nat \/ k = 12%nat).
Proof.
  intros L. rewrite level_prec in L. split.
  - assert (E1 : binary_prec (asc "^") = Some 12) by reflexivity. assert (E2 : binary_prec (asc "..") = Some 8) by reflexivity.
    intros [->| ->]; [rewrite E1 in L|rewrite E2 in L]; injection L; lia.
  - intros H. apply prec_get_in in L. cbn [k_binary_op_precs map In] in L.
    repeat (destruct L as [L|L]; [injection L as <- L; first [exfalso; lia|now left|now right]|]). easy.
Qed.
Lemma unary_spec lang op : unary_op lang op = true <-> unary lang op.
Proof.
  unfold unary_op, unary. rewrite andb_true_iff, existsb_in, orb_true_iff, !negb_true_iff, zeqb_neq.
  change k_unary_ops with (map asc ["-"; "~"; "not"; "#"; "@"; "%"; "$"]%string ++ [asc "*"]). rewrite in_app_iff. cbn [In].
  split.
  - intros ([I|[E|[]]] & H); [now left|]. subst. destruct H as [H|H]; [easy|]. right. split; [easy|]. now destruct lang.
  - intros [I|(-> & ->)]; [|auto]. split; [now left|]. left. intros ->. vm_compute in I. repeat (destruct I as [I|I]; [discriminate I|]). easy.
Qed.
Lemma lang_spec lang op : binary_lang lang op = true <-> in_lang lang op.
Proof.
  unfold binary_lang, in_lang. destruct (existsb (zeqb_list op) (map asc [">>>"; ">><"; "<<>"]%string)) eqn:E.
  - apply existsb_in in E. split; [intros H; split; [intros _; now destruct lang|intros ->; vm_compute in E; repeat (destruct E as [E|E]; [discriminate E|]); easy]|].
    intros (H & _). now rewrite (H E).
  - assert (N : ~ In op (map asc [">>>"; ">><"; "<<>"]%string)) by (intros I; apply existsb_in in I; congruence).
    destruct (zeqb_list op (asc "//")) eqn:E2.
    + apply zeqb_sound in E2. split; [intros H; split; [easy|]; intros _; now destruct lang|]. intros (_ & H). now rewrite (H E2).
    + apply zeqb_neq in E2. easy.
Qed.

(** operators are none of the other symbols *)
Definition suffix_sym (v : list Z) : bool := existsb (zeqb_list v) (map asc ["."; "["; "("; "{"; ":"]%string).
Lemma op_not_suffix op p : binary_prec op = Some p -> suffix_sym op = false.
Proof.
  intros E. apply prec_get_in in E. assert (H : forallb (fun x => negb (suffix_sym (fst x))) k_binary_op_precs = true) by (vm_compute; reflexivity).
  rewrite forallb_forall in H. specialize (H _ E). cbn in H. now apply negb_true_iff in H.
Qed.
Lemma unary_core lang op : unary lang op -> zeqb_list op (asc "{") = false /\ zeqb_list op (asc "(") = false /\ unary_op lang op = true /\
  existsb (zeqb_list op) (map asc ["nil"; "true"; "false"]%string) = false.
Proof.
  intros U. split; [|split; [|split; [now apply unary_spec|]]].
  all: destruct U as [I|(-> & _)]; [|reflexivity]; cbn [map In] in I; repeat (destruct I as [<-|I]; [reflexivity|]); easy.
Qed.
Lemma plain_not v s : plain_word v -> In (asc s) symbols -> zeqb_list v (asc s) = false.
Proof. intros (N & _) I. apply zeqb_neq. intros ->. easy. Qed.
Lemma plain_no_prec v : plain_word v -> binary_prec v = None.
Proof.
  intros (N & _). destruct (binary_prec v) eqn:E; [|easy]. exfalso. apply N. apply prec_get_in in E.
  assert (H : forallb (fun x => existsb (zeqb_list (fst x)) symbols) k_binary_op_precs = true) by (vm_compute; reflexivity).
  rewrite forallb_forall in H. specialize (H _ E). now apply existsb_in in H.
Qed.
Lemma plain_no_unary lang v : plain_word v -> unary_op lang v = false.
Proof.
  intros (N & _). destruct (unary_op lang v) eqn:E; [|easy]. exfalso. apply N. unfold unary_op in E. apply andb_prop in E as (E & _).
  apply existsb_in in E. assert (H : forallb (fun x => existsb (zeqb_list x) symbols) k_unary_ops = true) by (vm_compute; reflexivity).
  rewrite forallb_forall in H. specialize (H _ E). now apply existsb_in in H.
Qed.

(* ------------------------------------------------------------------ *)
(** * Fuel *)
Section Parser.
Context (lang : language) (rf : list tok -> res (list tok * list tok)).
Notation p_expr := (p_expr lang rf).
Notation p_core := (p_core lang rf).
Notation p_loop := (p_loop lang rf).
Notation p_args := (p_args lang rf).
Notation p_more_args := (p_more_args lang rf).
Notation p_items := (p_items lang rf).

Definition mono {A} (x y : res A) : Prop := x = Err EFuel \/ x = y.
Lemma mono_refl {A} (x : res A) : mono x x.
Proof. now right. Qed.
Lemma mono_bind {A B} (x y : res A) (k k' : A -> res B) : mono x y -> (forall a, mono (k a) (k' a)) -> mono (bind x k) (bind y k').
Proof. intros [->| ->] H; [now left|]. destruct y; cbn; [apply H|now right]. Qed.

Lemma mono_match {A B} (o : option A) (k k' : A -> res B) d d' : (forall a, mono (k a) (k' a)) -> mono d d' ->
  mono (match o with Some a => k a | None => d end) (match o with Some a => k' a | None => d' end).
Proof. now destruct o. Qed.

Ltac mono_tac := repeat first
  [ apply mono_refl
  | match goal with H : forall _, mono _ _ |- _ => apply H | H : forall _ _, mono _ _ |- _ => apply H | H : forall _ _ _, mono _ _ |- _ => apply H end
  | apply mono_bind; [|intros ?]
  | match goal with a : (_ * _)%type |- _ => destruct a end
  | match goal with |- mono (if ?b then _ else _) _ => destruct b end
  | match goal with |- mono (match ?x with _ => _ end) _ => destruct x end ].

Lemma fuel_mono n : forall m, (n <= m)%nat ->
  (forall prec ts, mono (p_expr n prec ts) (p_expr m prec ts)) /\
  (forall ts, mono (p_core n ts) (p_core m ts)) /\
  (forall prec e ts, mono (p_loop n prec e ts) (p_loop m prec e ts)) /\
  (forall ts, mono (p_args n ts) (p_args m ts)) /\
  (forall ts, mono (p_more_args n ts) (p_more_args m ts)) /\
  (forall ts, mono (p_items n ts) (p_items m ts)).
Proof.
  induction n as [|n IH]; intros m Hm; [repeat split; now left|]. destruct m as [|m]; [lia|].
  destruct (IH m ltac:(lia)) as (IE & IC & IL & IA & IM & II). clear IH Hm.
  repeat apply conj; intros.
  - cbn [M_Expr.p_expr]. mono_tac.
  - cbn [M_Expr.p_core]. mono_tac.
  - cbn [M_Expr.p_loop]. mono_tac.
  - cbn [M_Expr.p_args]. mono_tac.
  - cbn [M_Expr.p_more_args]. mono_tac.
  - cbn [M_Expr.p_items]. mono_tac.
Qed.

(** Enough fuel is never used up. *)
Context (Rf : forall ts body rest, rf ts = Ok (body, rest) -> ts = body ++ rest) (Rn : forall ts, rf ts <> Err EFuel).
Definition fits {A} (bound : nat) (r : res (A * list tok)) : Prop :=
  match r with Ok (_, rest) => (length rest < bound)%nat | Err e => e <> EFuel end.
Lemma fits_bind {A B} n m (r : res (A * list tok)) (k : A * list tok -> res (B * list tok)) : fits n r ->
  (forall a rest, (length rest < n)%nat -> fits m (k (a, rest))) -> fits m (bind r k).
Proof. destruct r as [(a, rest)|e]; cbn; [intros H K; now apply K|easy]. Qed.
Lemma accept_len v ts ts' : accept_value v ts = Some ts' -> length ts = S (length ts').
Proof. destruct ts as [|[ty w|] ts]; cbn; try easy. destruct (zeqb_list w v); [|easy]. intros [= ->]. reflexivity. Qed.
Lemma require_fits {B} v ts m (k : list tok -> res (B * list tok)) :
  (forall ts', S (length ts') = length ts -> fits m (k ts')) -> fits m (bind (require_value v ts) k).
Proof. unfold require_value. destruct (accept_value v ts) as [ts'|] eqn:E; [|easy]. apply accept_len in E. intros K. apply K. lia. Qed.
Lemma ident_fits {B} ts m (k : list Z * list tok -> res (B * list tok)) :
  (forall w ts', S (length ts') = length ts -> fits m (k (w, ts'))) -> fits m (bind (require_ident ts) k).
Proof. unfold require_ident. destruct ts as [|[[] w|] ts]; try easy. intros K. now apply K. Qed.
Lemma fits_le {A} n m (r : res (A * list tok)) : (n <= m)%nat -> fits n r -> fits m r.
Proof. destruct r as [(a, rest)|e]; cbn; [lia|easy]. Qed.

Ltac fits_tac IE IC IL IA IM II := repeat first
  [ apply require_fits; intros
  | apply ident_fits; intros
  | match goal with |- fits _ (bind (bind _ _) _) => idtac | |- fits _ (bind (match _ with _ => _ end) _) => idtac
      | |- fits _ (bind ?r _) => eapply fits_bind; [first [apply IE|apply IC|apply IL|apply IA|apply IM|apply II]; cbn [length] in *; lia|];
      let e := fresh in let r := fresh "r" in let H := fresh in intros e r H; cbn beta iota end
  | match goal with |- fits _ (Ok _) => cbn [fits length] in *; lia | |- fits _ (Err _) => now cbn end
  | match goal with |- fits _ (if ?b then _ else _) => destruct b end
  | match goal with |- fits _ (match ?o with Some _ => _ | None => _ end) => destruct o eqn:? end
  | match goal with H : accept_value _ _ = Some _ |- _ => apply accept_len in H end
  | eapply fits_le; [|first [apply IL|apply IM]; cbn [length] in *; lia]; cbn [length] in *; lia ].
Lemma fuel_fits n :
  (forall prec ts, (3 * length ts + 2 <= n)%nat -> fits (length ts) (p_expr n prec ts)) /\
  (forall ts, (3 * length ts + 1 <= n)%nat -> fits (length ts) (p_core n ts)) /\
  (forall prec e ts, (3 * length ts + 2 <= n)%nat -> fits (S (length ts)) (p_loop n prec e ts)) /\
  (forall ts, (3 * length ts + 4 <= n)%nat -> fits (length ts) (p_args n ts)) /\
  (forall ts, (3 * length ts + 3 <= n)%nat -> fits (length ts) (p_more_args n ts)) /\
  (forall ts, (3 * length ts + 3 <= n)%nat -> fits (length ts) (p_items n ts)).
Proof.
  induction n as [|n (IE & IC & IL & IA & IM & II)]; [repeat split; intros; lia|].
  repeat apply conj; intros.
  - cbn [M_Expr.p_expr]. fits_tac IE IC IL IA IM II.
  - cbn [M_Expr.p_core]. destruct ts as [|[ty v|] ts]; [easy| |easy]. cbn [length] in *.
    destruct (const_tok _); [cbn; lia|]. destruct (zeqb_list v (asc "{")); [fits_tac IE IC IL IA IM II|].
    destruct (zeqb_list v (asc "(")); [fits_tac IE IC IL IA IM II|]. destruct (unary_op lang v); [fits_tac IE IC IL IA IM II|].
    destruct (zeqb_list v (asc "?")); [easy|]. destruct (zeqb_list v (asc "function")).
    { destruct (rf ts) as [(b, r)|e] eqn:E; [|intros ->; now apply Rn in E]. apply Rf in E. subst. cbn. rewrite app_length. lia. }
    destruct (zeqb_list v (asc "...")); [cbn; lia|]. destruct ty; cbn; try easy; lia.
  - cbn [M_Expr.p_loop]. destruct ts as [|[ty v|] ts]; [cbn; lia| |cbn; lia]. cbn [length] in *.
    destruct (zeqb_list v (asc ".") && prefix_type e); [fits_tac IE IC IL IA IM II|].
    destruct (zeqb_list v (asc "[") && prefix_type e); [fits_tac IE IC IL IA IM II|].
    destruct (zeqb_list v (asc "(") && prefix_type e); [fits_tac IE IC IL IA IM II|].
    destruct (short_arg (Tok ty v :: ts) && prefix_type e); [fits_tac IE IC IL IA IM II|].
    destruct (zeqb_list v (asc ":") && prefix_type e); [fits_tac IE IC IL IA IM II|].
    fits_tac IE IC IL IA IM II.
  - cbn [M_Expr.p_args]. fits_tac IE IC IL IA IM II.
  - cbn [M_Expr.p_more_args]. fits_tac IE IC IL IA IM II.
  - cbn [M_Expr.p_items]. destruct (accept_value (asc "}") ts) eqn:E; [fits_tac IE IC IL IA IM II|].
    apply (fits_bind (length ts)).
    + destruct (accept_value (asc "[") ts) eqn:E2; [fits_tac IE IC IL IA IM II|].
      destruct ts as [|t [|[ty w|] ts]]; fits_tac IE IC IL IA IM II.
    + intros mk rest Hr. destruct (accept_value (asc "}") rest) eqn:E2; [fits_tac IE IC IL IA IM II|].
      apply (fits_bind (length rest)); [fits_tac IE IC IL IA IM II|]. intros sep rest2 Hr2. fits_tac IE IC IL IA IM II.
Qed.

(** so some fuel is as good as enough of it *)
Lemma parse_enough n ts e rest : p_expr n None ts = Ok (e, rest) -> parse_expr lang rf ts = Ok (e, rest).
Proof.
  intros E. unfold parse_expr. set (k := (3 * length ts + 3)%nat). destruct (fuel_fits k) as (F & _). specialize (F None ts ltac:(lia)).
  destruct (Nat.le_ge_cases n k) as [L|L].
  - destruct (fuel_mono n k L) as (M & _). destruct (M None ts) as [M1|M1]; congruence.
  - destruct (fuel_mono k n L) as (M & _). destruct (M None ts) as [M1|M1]; [|congruence]. rewrite M1 in F. now cbn in F.
Qed.
End Parser.
