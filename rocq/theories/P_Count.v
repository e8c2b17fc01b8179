(** C76: counting tokens. *)
From Coq Require Import String List ZArith Lia Bool.
From Verif Require Import M_Base L_Util M_Fold M_Token S_Token M_Expr S_Expr M_Stmt S_Stmt L_StmtRead2 M_Emit S_Emit L_Emit7 M_Tidy S_Tidy L_Tidy M_Unmin S_Unmin L_Unmin5 L_Unmin8 M_Short S_Short L_Short2 M_Count S_Count L_Count L_Count2 P_Stmt P_Unmin.
Import ListNotations.
Open Scope nat_scope.

Lemma run_toks b : map fst (emit b) = toks (m_blk b). Proof. apply toks_run. Qed.
Lemma counted lang b l : wf_blk lang b -> even_blk b -> map fst l = toks (m_blk b) -> size_blk b <= count_tokens l /\ (signs_close l -> count_tokens l = size_blk b).
Proof.
  intros W E M. unfold count_tokens. split.
  - pose proof (cnt_least l None) as C. rewrite M, (count_toks lang b W E) in C. exact C.
  - intros S. rewrite (cnt_close l None S), M. apply (count_toks lang b W E).
Qed.
Lemma source_toks lang b ts : program lang b ts -> map fst ts = toks (m_blk b).
Proof. intros P. rewrite <- (emit_toks lang b ts P). apply run_toks. Qed.

(** C76: however the tokens of a program are spaced, they count at least as much as its parts do;
    and exactly as much if nothing is between the signs of numbers and the numbers. *)
Theorem C76_count : forall lang ts b, Forall proper (map fst ts) -> parse_prog lang ts = Ok b -> even_blk b ->
  forall l, map fst l = map fst ts -> size_blk b <= count_tokens l /\ (signs_close l -> count_tokens l = size_blk b).
Proof.
  intros lang ts b F P E l M. apply C71_exact in P; [|exact F]. apply (counted lang); [apply P|exact E|]. now rewrite M, (source_toks lang b ts P).
Qed.
(** From the source text on. *)
Lemma gaps_toks l : map fst (gaps l) = map snd l. Proof. induction l as [|(i, t) l IH]; cbn; congruence. Qed.
Lemma pos_loop fuel lang : forall s i, tok_loop fuel lang s = (l <- tok_loop_pos fuel lang i s ;; Ok (map snd l)).
Proof.
  induction fuel as [|fuel IH]; intros [|c s] i; try reflexivity. cbn [tok_loop tok_loop_pos]. destruct (tok_round lang c s) as [a r|]; [|reflexivity]. rewrite (IH r (i + (length (c :: s) - length r))).
  destruct (tok_loop_pos _ _ _ r); [|reflexivity]. cbn [bind]. rewrite map_app, map_map. cbn [snd]. now rewrite map_id.
Qed.
Theorem C76_text : forall lang src toks ts b, tokenize lang src = Ok toks -> ~ In TErr toks -> map fst ts = toks -> parse_prog lang ts = Ok b -> even_blk b ->
  exists l, tokenize_pos lang src = Ok l /\ count_text lang src = Ok (count_tokens (gaps l)) /\ size_blk b <= count_tokens (gaps l) /\ (signs_close (gaps l) -> count_tokens (gaps l) = size_blk b).
Proof.
  intros lang src toks ts b T NE M P E. pose proof T as T0. unfold tokenize in T0. rewrite (pos_loop _ _ _ 0) in T0. fold (tokenize_pos lang src) in T0. unfold count_text. destruct (tokenize_pos lang src) as [l|]; [|discriminate T0]. cbn [bind] in *. injection T0 as T0.
  exists l. split; [reflexivity|]. split; [reflexivity|]. apply (C71_text lang src toks ts b T NE M) in P. apply (counted lang); [apply P|exact E|]. rewrite gaps_toks, T0, <- M. now apply (source_toks lang).
Qed.
(** Minifying does not add to the count: neither the clean-up of tokens nor changing between
    shorthands and long forms. *)
Theorem C76_minify : forall lang ver ts b, Forall proper (map fst ts) -> parse_prog lang ts = Ok b -> even_blk b ->
  forall l l', map fst l = map fst ts -> map fst l' = map fst (emit (tidy lang ver b)) -> signs_close l' -> count_tokens l' <= count_tokens l.
Proof.
  intros lang ver ts b F P E l l' M M' S. apply C71_exact in P; [|exact F]. pose proof (source_toks lang b ts P) as T. destruct P as (W & _). rewrite run_toks in M'.
  destruct (counted lang b l W E) as (A & _); [congruence|]. destruct (counted lang (tidy lang ver b) l') as (_ & B); [now apply all_wf|now apply all_even|exact M'|]. rewrite (B S).
  destruct (all_less lang ver) as (_ & _ & _ & _ & Le & _). specialize (Le b false None). unfold tidy. lia.
Qed.
Theorem C76_shorthands : forall lang ver o ts b, Forall proper (map fst ts) -> parse_prog lang ts = Ok b -> even_blk b -> lua b -> plain_blk b ->
  forall l l', map fst l = map fst ts -> map fst l' = map fst (emit (tidy lang ver (switch o b))) -> signs_close l' -> count_tokens l' <= count_tokens l.
Proof.
  intros lang ver o ts b F P E U Pl l l' M M' S. apply C71_exact in P; [|exact F]. pose proof (source_toks lang b ts P) as T. destruct P as (W & _). rewrite run_toks in M'.
  destruct (counted lang b l W E) as (A & _); [congruence|]. destruct (counted lang (tidy lang ver (switch o b)) l') as (_ & B); [destruct (all_wf_sw lang o) as (_ & _ & _ & _ & V & _); now apply all_wf, V| |exact M'|].
  { apply all_even. destruct (all_even_sw o) as (_ & _ & _ & _ & Ev & _). now apply Ev. }
  rewrite (B S).   destruct (all_less lang ver) as (_ & _ & _ & _ & Le & _). specialize (Le (switch o b) false None). destruct (all_less_sw o) as (_ & _ & _ & _ & Lw & _). specialize (Lw b true U None). unfold tidy, switch in *. lia.
Qed.
(** Laying a program out leaves the count as it is. *)
Theorem C76_unminify : forall lang src toks ts b, tokenize lang src = Ok toks -> ~ In TErr toks -> map fst ts = toks -> parse_prog lang ts = Ok b -> even_blk b ->
  neat_blk b -> lua (long_blk b) ->
  forall ind sub, blanks ind -> exists out toks', unminify ind sub b = Ok out /\ tokenize lang out = Ok toks' /\
    forall l l', map fst l = toks -> signs_close l -> map fst l' = toks' -> signs_close l' -> count_tokens l' = count_tokens l.
Proof.
  intros lang src ts0 ts b T NE M P E N L ind sub Ind. apply (C71_text lang src ts0 ts b T NE M) in P. pose proof (lexemes lang src ts0 T NE) as F.
  destruct (unminified lang b ts P) with (ind := ind) (sub := sub) as (out & Eq & To & Lx); [now rewrite M|exact N|exact L|now apply blanks_wspace|]. exists out. eexists. split; [exact Eq|]. split; [exact To|]. intros l l' Ml S Ml' S'.
  pose proof (source_toks lang b ts P) as Tk. destruct P as (W & _). destruct (counted lang b l W E) as (_ & A); [congruence|]. destruct (counted lang (long_blk b) l') as (_ & B); [now apply all_wf_long|now apply all_even_long|exact Ml'|]. rewrite (A S), (B S').
  destruct all_long as (_ & _ & _ & _ & Sz & _). now apply Sz.
Qed.

(* ------------------------------------------------------------------ *)
(** Concrete cases. *)
Definition count_source : string := "local a,b=-1,f('x') if (a~=- 2) then t={1;-2,[b]=...} end function o.p:q(...) return a-1,~0x5 end for i=1,-9,-1 do goto l ::l:: end".
Example ex_count : even_blk (tree count_source) /\ lua (tree count_source) /\ neat_blk (tree count_source) /\ lua (long_blk (tree count_source)) /\ plain_blk (tree count_source).
Proof. split; [vm_compute; repeat split|]. split; [vm_compute; repeat split; discriminate|]. split; [|split; vm_compute; repeat split; discriminate]. vm_compute; repeat split; try discriminate; try tauto; intros (? & ?); discriminate. Qed.
Example ex_count_size : size_blk (tree count_source) = 44 /\ count_text Pico8 (asc count_source) = Ok 45 /\ size_blk (tidy Pico8 43 (tree count_source)) = 42.
Proof. vm_compute. auto. Qed.
Example ex_count_close : exists l, tokenize_pos Pico8 (asc "a=b-1+-2") = Ok l /\ signs_close (gaps l) /\ count_tokens (gaps l) = 7.
Proof. eexists. split; [vm_compute; reflexivity|]. split; [|vm_compute; reflexivity]. cbn. intros a p t g n g' b E S (v & N) O. do 9 (destruct a as [|? a]; cbn in E; [try discriminate E; injection E; intros; subst; cbn in *; try discriminate; reflexivity|try discriminate E; injection E as _ E]). Qed.
(** Without [even_blk]: an operator behind "..." counts only if there is a space behind it. *)
Theorem C76_word_refuted : lua (tree "f(...-1)") /\ size_blk (tree "f(...-1)") = 5 /\ count_text Pico8 (asc "f(...-1)") = Ok 4 /\ count_text Pico8 (asc "f(... - 1)") = Ok 5.
Proof. vm_compute. auto 8. Qed.
(** A table is counted differently with another separator, which the clean-up puts. *)
Theorem C76_table_refuted : even_blk (tree "t={1;-1}") /\ count_text Pico8 (asc "t={1;-1}") = Ok 6 /\ count_text Pico8 (asc "t={1,-1}") = Ok 5 /\ core_blk (tree "t={1;-1}") = core_blk (tree "t={1,-1}").
Proof. vm_compute. auto 8. Qed.

Print Assumptions C76_count.
Print Assumptions C76_text.
Print Assumptions C76_minify.
Print Assumptions C76_shorthands.
Print Assumptions C76_unminify.
Print Assumptions C76_word_refuted.
Print Assumptions C76_table_refuted.
