(** C94: what is listed in comments. *)
From Coq Require Import String.
From Coq Require Import List ZArith Bool Lia.
From Verif Require Import M_Base L_Util M_Fold M_Token S_Token M_Expr M_Stmt M_Hints S_Gap S_Hints M_Count M_Rename S_Rename M_Lint M_HintUse S_HintUse.
From Verif Require Import L_Token L_TokenSeq L_Pipe P_Gap L_Hints L_Unmin8 P_Hints P_Rename S_Lint P_Lint P_Count.
Import ListNotations.
Open Scope list_scope.
Open Scope Z_scope.

Section Listed.
Context (isspace : Z -> bool) (K : list (list Z) -> hint) (sel : hint -> list (list Z)).
Context (SK : forall l, sel (K l) = l) (SN : forall h, (exists l, h = K l) \/ (forall l, h <> K l) /\ sel h = []).
Notation has := (fun c l => hint_of isspace c (K l)).
Lemma listed_app has' : forall cs ws cs' ws', listed has' cs ws -> listed has' cs' ws' -> listed has' (cs ++ cs') (ws ++ ws').
Proof. intros cs ws cs' ws' H H'. induction H; cbn [app]; [exact H'|now apply listed_skip|]. rewrite <- app_assoc. now apply listed_one. Qed.
Lemma hint_unique c h h' : hint_of isspace c h -> hint_of isspace c h' -> h = h'.
Proof. destruct c as [b t]. rewrite !hint_at_ok. congruence. Qed.
Lemma hints_listed cs hs : hints_are isspace cs hs -> listed has cs (flat_map sel hs).
Proof.
  induction 1 as [|cs c hs H IH N|cs c hs h H IH Hh]; cbn [flat_map]; [constructor| |].
  - rewrite <- (app_nil_r (flat_map sel hs)). apply listed_app; [exact IH|]. apply listed_skip; [intros l; apply N|constructor].
  - rewrite flat_map_app. apply listed_app; [exact IH|]. cbn [flat_map]. destruct (SN h) as [(l & ->)|(N & E)].
    + rewrite SK. apply listed_one; [exact Hh|constructor].
    + rewrite E. apply listed_skip; [intros l Hl; exact (N l (hint_unique _ _ _ Hh Hl))|constructor].
Qed.
Lemma text_listed lang src hts e : hinted isspace lang src hts e ->
  exists cs, text_comments lang src cs /\ listed has cs (flat_map sel (concat (children (hts, e)))).
Proof.
  induction 1 as [g cs e G S|g cs c body e G C S|g cs t m rest hts e G L S H (cs' & T & W)]; unfold children; cbn [map fst snd app concat].
  - exists cs. split; [now apply text_end|]. rewrite app_nil_r. apply hints_listed, S.
  - exists (cs ++ [(false, body)]). split; [now apply text_line|]. rewrite app_nil_r. apply hints_listed, S.
  - exists (cs ++ cs'). split; [now apply text_token|]. rewrite flat_map_app. apply listed_app; [apply hints_listed, S|exact W].
Qed.
End Listed.
Lemma fold_concat {A B} (f : A -> B -> A) : forall l s, fold_left (fun s x => fold_left f x s) l s = fold_left f (concat l) s.
Proof. induction l as [|x l IH]; intros s; cbn [fold_left concat]; [reflexivity|]. now rewrite IH, fold_left_app. Qed.
Lemma fold_words {A} (f : A -> hint -> A) (g : A -> list Z -> A) sel : (forall s h, f s h = fold_left g (sel h) s) ->
  forall hs s, fold_left f hs s = fold_left g (flat_map sel hs) s.
Proof. intros E. induction hs as [|h hs IH]; intros s; cbn [fold_left flat_map]; [reflexivity|]. now rewrite IH, fold_left_app, E. Qed.

Definition preserve_words (h : hint) : list (list Z) := match h with HPreserve l => l | _ => [] end.
Definition lint_words (h : hint) : list (list Z) := match h with HLint l => l | _ => [] end.
Lemma preserve_sel h : (exists l, h = HPreserve l) \/ (forall l, h <> HPreserve l) /\ preserve_words h = [].
Proof. destruct h; [right|left; eauto|right]; split; try reflexivity; discriminate. Qed.
Lemma lint_sel h : (exists l, h = HLint l) \/ (forall l, h <> HLint l) /\ lint_words h = [].
Proof. destruct h; [left; eauto|right|right]; split; try reflexivity; discriminate. Qed.

Section Text.
Context (isspace : Z -> bool) (SP : ascii_isspace isspace) (lang : language) (src : list Z) (hts : list (tok * mods)) (e : mods).
Context (T : tokenize_hints isspace lang src = Ok (hts, e)) (NE : ~ In TErr (map fst hts)).

(** The rules in the comments of a program, wherever they are in it, count as if they were given as options behind the others: for
    which names are kept, see C38. *)
Theorem C94_rules : exists cs ws, text_comments lang src cs /\ preserves isspace cs ws /\
  forall builtins members opts, rules_with_hints builtins members opts (hts, e) = read_rules builtins members (opts ++ ws).
Proof.
  destruct (text_listed isspace HPreserve preserve_words (fun l => eq_refl) preserve_sel lang src hts e) as (cs & A & B); [now apply C93_hints|].
  exists cs, (flat_map preserve_words (concat (children (hts, e)))). split; [exact A|]. split; [exact B|]. intros b m opts.
  unfold rules_with_hints. rewrite fold_concat, (fold_words preserve_hint add_rule preserve_words) by (intros s [l|l|]; reflexivity). unfold read_rules. now rewrite fold_left_app.
Qed.
Theorem C94_kept : exists cs ws, text_comments lang src cs /\ preserves isspace cs ws /\
  forall builtins members opts t n, plain t -> plain n ->
    (ie_contains (r_globals (rules_with_hints builtins members opts (hts, e))) n = true <-> preserved_global builtins (opts ++ ws) n) /\
    (tm_contains (r_members (rules_with_hints builtins members opts (hts, e))) t n = true <-> preserved_member members (opts ++ ws) t n).
Proof.
  destruct C94_rules as (cs & ws & A & B & R). exists cs, ws. split; [exact A|]. split; [exact B|]. intros b m opts t n Pt Pn. rewrite R.
  split; [now apply C38_globals|now apply C38_members].
Qed.

(** A name in a "lint:" comment is taken for a global of the user, and one behind "used::" for one that is used. *)
Definition no_colons (w : list Z) : Prop := forall a b, w <> a ++ [58; 58] ++ b.
Lemma colons w : match find_sub (asc "::") w with None => no_colons w | Some _ => ~ no_colons w end.
Proof.
  induction w as [|c w IH]; cbn [find_sub]; [cbn; intros a b; destruct a; discriminate|].
  destruct (is_prefix (asc "::") (c :: w)) eqn:P.
  - apply is_prefix_iff in P as (r & P). intros N. exact (N [] r P).
  - destruct (find_sub (asc "::") w) as [[a b]|].
    + intros N. apply IH. intros x y E. apply (N (c :: x) y). now rewrite E.
    + intros a b E. destruct a as [|d a]; [|injection E as -> E; exact (IH a b E)].
      assert (K : is_prefix (asc "::") (c :: w) = true) by (apply is_prefix_iff; exists b; exact E). congruence.
Qed.
Lemma used_after x : pre "used::" (asc "used::" ++ x) = true /\ str_after_first (asc "used::" ++ x) (asc "::") = x.
Proof. split; [apply pre_iff; now exists x|reflexivity]. Qed.
Lemma lint_fold : forall ws s, let s' := fold_left lint_word ws s in
  (forall x, In x (fst s') <-> In x (fst s) \/ In x ws /\ no_colons x) /\ (forall x, In x (snd s') <-> In x (snd s) \/ In (asc "used::" ++ x) ws).
Proof.
  induction ws as [|w ws IH]; intros s; cbn zeta; cbn [fold_left]; [split; intros x; cbn [In]; tauto|].
  destruct (IH (lint_word s w)) as [A B]. split; intros x; [rewrite A|rewrite B]; clear A B IH; unfold lint_word; pose proof (colons w) as C;
    destruct (find_sub (asc "::") w) as [p|] eqn:F; cbn [In].
  - assert (E : fst (if pre "used::" w then (fst s, snd s ++ [str_after_first w (asc "::")]) else s) = fst s) by now destruct (pre "used::" w).
    rewrite E. intuition (subst; contradiction).
  - cbn [fst]. rewrite in_app_iff. cbn [In]. intuition (subst; auto).
  - destruct (pre "used::" w) eqn:U; cbn [snd].
    + apply pre_iff in U as (r & ->). rewrite (proj2 (used_after r)), in_app_iff. cbn [In]. split; [intuition (subst; auto)|]. intros [H|[H|H]]; auto. apply app_inv_head in H. auto.
    + split; [tauto|]. intros [H|[H|H]]; auto. subst w. rewrite (proj1 (used_after x)) in U. discriminate U.
  - cbn [snd]. split; [tauto|]. intros [H|[H|H]]; auto. subst w. exfalso. apply (C (asc "used") x). reflexivity.
Qed.
Theorem C94_lint : exists cs ws, text_comments lang src cs /\ lints isspace cs ws /\
  forall o, (forall x, In x (o_globals (opts_with_hints o (hts, e))) <-> In x (o_globals o) \/ In x ws /\ no_colons x) /\
    (forall x, In x (o_used (opts_with_hints o (hts, e))) <-> In x (o_used o) \/ In (asc "used::" ++ x) ws).
Proof.
  destruct (text_listed isspace HLint lint_words (fun l => eq_refl) lint_sel lang src hts e) as (cs & A & B); [now apply C93_hints|].
  exists cs, (flat_map lint_words (concat (children (hts, e)))). split; [exact A|]. split; [exact B|]. intros o.
  unfold opts_with_hints. cbn zeta. cbn [o_globals o_used]. rewrite fold_concat, (fold_words lint_hint lint_word lint_words) by (intros s [l|l|]; reflexivity). apply lint_fold.
Qed.
(** So a name in such a comment is never reported as not found, and one behind "used::" never as only assigned. *)
Theorem C94_lint_quiet : exists cs ws, text_comments lang src cs /\ lints isspace cs ws /\
  forall o builtins lb b x, ~ In (str "_ENV") lb ->
    (In x ws -> no_colons x -> forall h, ~ In (MNotFound h x) (lint_code (opts_with_hints o (hts, e)) builtins lb b)) /\
    (In (asc "used::" ++ x) ws -> ~ In (MGlobalAssigned x) (lint_code (opts_with_hints o (hts, e)) builtins lb b)).
Proof.
  destruct C94_lint as (cs & ws & A & B & H). exists cs, ws. split; [exact A|]. split; [exact B|]. intros o builtins lb b x N. destruct (H o) as [G U]. split.
  - intros I C h R. apply C81_not_found in R as (_ & R & _); [|exact N]. apply R. right; left. apply G. now right.
  - intros I R. apply C82_globals in R as (_ & _ & _ & _ & _ & R); [|exact N]. apply R, U. now right.
Qed.
End Text.

(** ** The count *)
(** A token right behind another one has no hints. *)
Fixpoint apart (l : list (nat * tok)) (ms : list mods) : Prop :=
  match l, ms with
  | (i, t) :: l, _ :: ms => match l, ms with (j, _) :: _, m :: _ => j = (i + length (tok_value t))%nat -> m = no_mods | _, _ => True end /\ apart l ms
  | _, _ => True
  end.
Definition begins (i : nat) (m : mods) (l : list (nat * tok)) (ms : list mods) : Prop :=
  match l, ms with (j, _) :: _, m' :: _ => (i <= j)%nat /\ (j = i -> m' = m) | _, _ => True end.
Lemma both_loops isspace lang : forall n m s i l hts e, tok_loop_pos n lang i s = Ok l -> tok_loop_hints isspace n lang m s = Ok (hts, e) -> ~ In TErr (map fst hts) ->
  map snd l = map fst hts /\ begins i m l (map snd hts) /\ apart l (map snd hts).
Proof.
  induction n as [|n IH]; intros m [|ch t] i l hts e P H N; cbn [tok_loop_pos tok_loop_hints] in P, H; try discriminate P.
  1,2: apply Ok_inj in P; apply Ok_inj in H; injection H as <- <-; subst l; cbn; auto.
  destruct (tok_round lang ch t) as [a r|] eqn:R; [|discriminate P]. cbv zeta in H.
  set (m1 := match a with [] => m | _ => no_mods end) in *. set (m2 := match round_comment lang ch t with Some (b, c) => process_comment isspace b c m1 | None => m1 end) in *.
  destruct (tok_loop_pos n lang (i + (length (ch :: t) - length r)) r) as [l'|] eqn:P'; [|discriminate P]. cbn [bind] in P. apply Ok_inj in P. subst l.
  destruct (tok_loop_hints isspace n lang m2 r) as [[hts' e']|] eqn:H'; [|discriminate H]. cbn [bind fst snd] in H. apply Ok_inj in H. injection H as <- <-.
  rewrite map_app in N. destruct (IH m2 r _ l' hts' e' P' H') as (A & B & C); [intros K; apply N, in_or_app; now right|].
  pose proof (round_len _ _ _ _ _ R) as Len. cbn [length] in *.
  destruct (round_shape _ _ _ _ _ R) as [->|[(ty & v & ->)|(x & -> & _)]].
  - cbn [map attach app]. split; [exact A|]. split; [|exact C]. destruct l' as [|[j u] l']; [exact I|]. cbn [begins] in *. destruct (map snd hts'); [exact I|]. destruct B as [B1 B2]. split; [lia|]. intros ->. lia.
  - subst m1. unfold m2 in B. rewrite (token_no_comment _ _ _ _ _ _ R) in B. apply round_tok in R as (x & -> & -> & _). cbn [map attach app snd fst] in *. split; [now rewrite A|].
    split; [cbn; split; [lia|reflexivity]|]. cbn [apart tok_value]. split; [|exact C]. destruct l' as [|[j u] l']; [exact I|]. cbn [begins] in B. destruct (map snd hts') as [|m' ms]; [exact I|].
    destruct B as [_ B]. intros E. apply B. rewrite E. cbn [length]. rewrite app_length. lia.
  - exfalso. apply N, in_or_app. left. cbn. now left.
Qed.
Lemma ends_iff m : ends_count m = true <-> stop_before m.
Proof.
  unfold ends_count, stop_before. rewrite existsb_exists. split.
  - intros (h & I & H). destruct h as [ws| |]; try discriminate H. exists ws. split; [exact I|]. apply existsb_exists in H as (w & Iw & E). apply L_Util.zeqb_list_true in E. now subst w.
  - intros (ws & I & W). exists (HLint ws). split; [exact I|]. apply existsb_exists. exists (asc "count::stop"). split; [exact W|]. now apply L_Util.zeqb_list_true.
Qed.
Lemma gaps_len l : length (gaps l) = length l.
Proof. induction l as [|[i t] l IH]; cbn; congruence. Qed.
Lemma count_stops : forall l ms prev, length l = length ms -> apart l ms ->
  exists k, (k <= length l)%nat /\ count_hints prev (combine (gaps l) ms) = M_Count.count prev (firstn k (gaps l)) /\
    (forall i, (i < k)%nat -> ~ stop_before (nth i ms no_mods)) /\ ((k < length l)%nat -> stop_before (nth k ms no_mods)).
Proof.
  induction l as [|[i t] l IH]; intros [|m ms] prev E A; try discriminate E.
  - exists 0%nat. cbn. repeat split; lia.
  - cbn [gaps combine count_hints]. destruct (ends_count m) eqn:S.
    + exists 0%nat. cbn [firstn M_Count.count length]. split; [lia|]. split; [reflexivity|]. split; [lia|]. intros _. now apply ends_iff.
    + cbn [apart] in A. destruct A as [A1 A2]. injection E as E. destruct (IH ms (Some t) E A2) as (k & L & C & B & D). exists (Datatypes.S k). cbn [firstn M_Count.count length]. split; [lia|]. split.
      * rewrite C. f_equal. assert (MF : map fst (combine (gaps l) ms) = gaps l).
        { clear -E. revert ms E. induction l as [|[i t] l IH]; intros [|m ms] E; try discriminate E; [reflexivity|]. cbn. f_equal. apply IH. now injection E. }
        rewrite MF. destruct l as [|[j u] l]; [now destruct k|]. destruct k as [|k]; [|reflexivity]. destruct ms as [|m' ms]; [discriminate E|].
        assert (G : Nat.eqb (i + length (tok_value t)) j = false).
        { apply Nat.eqb_neq. intros K. symmetry in K. apply A1 in K. subst m'. destruct D as (ws & I & _); [cbn; lia|]. exact I. }
        unfold cost. rewrite G. now rewrite !andb_false_r.
      * split; [|intros K; apply D; lia]. intros [|q] K; cbn [nth]; [intros F; apply ends_iff in F; congruence|apply B; lia].
Qed.
(** The count ends at the first token with "lint: count::stop" before it: it is that of the tokens before that one. *)
Theorem C94_count : forall isspace lang src hts e, tokenize_hints isspace lang src = Ok (hts, e) -> ~ In TErr (map fst hts) ->
  exists l k, tokenize_pos lang src = Ok l /\ map snd l = map fst hts /\ (k <= length l)%nat /\
    count_text_hints isspace lang src = Ok (count_tokens (firstn k (gaps l))) /\
    (forall i, (i < k)%nat -> ~ stop_before (nth i (map snd hts) no_mods)) /\ ((k < length l)%nat -> stop_before (nth k (map snd hts) no_mods)).
Proof.
  intros isspace lang src hts e T N. pose proof (C93_tokens isspace lang src) as Tk. rewrite T in Tk. unfold tokenize in Tk. rewrite (pos_loop _ _ _ 0) in Tk.
  fold (tokenize_pos lang src) in Tk. unfold count_text_hints. rewrite T. destruct (tokenize_pos lang src) as [l|] eqn:P; [|discriminate Tk]. cbn [bind fst].
  destruct (both_loops isspace lang _ _ _ _ _ _ _ P T N) as (A & _ & C). exists l.
  destruct (count_stops l (map snd hts) None) as (k & L & E & B & D); [rewrite map_length, <- (map_length fst hts), <- A, map_length; reflexivity|exact C|].
  exists k. unfold count_tokens. rewrite E. now repeat split.
Qed.

(** A case: of "a=1 --lint: count::stop" and, on the next line, "b=2 --preserve: b,!c", three tokens count, and "b" is kept and "c" is not. *)
Definition ex_text : list Z := asc "a=1 --lint: count::stop,d,used::e" ++ 10 :: asc "b=2 --preserve: b,!c".
Definition ex_p : hinted_tokens := Eval vm_compute in match tokenize_hints some_space Pico8 ex_text with Ok p => p | Err _ => ([], no_mods) end.
Example ex_use : tokenize_hints some_space Pico8 ex_text = Ok ex_p /\
  count_text_hints some_space Pico8 ex_text = Ok 3%nat /\ count_text Pico8 ex_text = Ok 6%nat /\
  rules_with_hints [str "c"] [] [str "x"] ex_p = read_rules [str "c"] [] [str "x"; str "b"; str "!c"] /\
  o_globals (opts_with_hints no_lint_opts ex_p) = [str "d"] /\ o_used (opts_with_hints no_lint_opts ex_p) = [str "e"].
Proof. vm_compute. auto 8. Qed.
Example ex_use_tokens : ~ In TErr (map fst (fst ex_p)).
Proof. unfold ex_p. cbn [fst map In]. intuition discriminate. Qed.
Print Assumptions C94_rules.
Print Assumptions C94_kept.
Print Assumptions C94_lint.
Print Assumptions C94_lint_quiet.
Print Assumptions C94_count.
