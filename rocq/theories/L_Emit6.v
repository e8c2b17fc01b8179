(** What is written is a program again. *)
From Coq Require Import String List ZArith Lia Bool.
From Verif Require Import M_Base L_Util M_Fold M_Token M_Expr S_Expr L_Expr L_ExprPrint M_Stmt S_Stmt L_Stmt L_StmtEq L_StmtRead M_Emit S_Emit L_Emit L_Emit2 L_Emit3 L_Emit4 L_Emit5.
Import ListNotations.
Open Scope Z_scope.

Opaque S_Stmt.wf S_Stmt.wf_exs S_Stmt.wf_its S_Stmt.wf_st S_Stmt.wf_blk S_Stmt.wf_ifs S_Stmt.wf_els S_Stmt.lay S_Stmt.lay_list S_Stmt.lay_its S_Stmt.lay_st S_Stmt.lay_blk S_Stmt.lay_ifs S_Stmt.lay_els.

Definition even_ex := proj1 all_even.
Definition even_exs := proj1 (proj2 all_even).
Definition even_its := proj1 (proj2 (proj2 all_even)).
Definition even_st := proj1 (proj2 (proj2 (proj2 all_even))).
Definition even_blk := proj1 (proj2 (proj2 (proj2 (proj2 all_even)))).
Definition even_ifs := proj1 (proj2 (proj2 (proj2 (proj2 (proj2 all_even))))).
Lemma even_els e : even (m_els e). Proof. apply (proj2 (proj2 (proj2 (proj2 (proj2 (proj2 all_even)))))). Qed.

(** The level is that of the place. *)
Definition ok (m : place) (s : estate) : Prop := match m with Within => lvl s <> 0%nat | _ => lvl s = 0%nat end.
Lemma ok_after m s a : even a -> ok m s -> ok m (after s a).
Proof. intros (E & _). unfold ok. now rewrite E. Qed.
Lemma ok_calm m s : ok (calm m) s <-> ok m s. Proof. now destruct m. Qed.
(** What follows is as said. *)
Definition goes (k : behind) (s : estate) (rest : list ltok) : Prop :=
  (k = Break \/ due s = true -> past (Some (lin s)) rest) /\ (k = Else -> next_is ["else"]%string rest) /\ (k = Closer -> next_is ["end"; "elseif"; "until"]%string rest).
(** In the body of a shorthand, all on its line. *)
Definition linked (vl : option Z) (s : estate) (m : place) : Prop := forall l, vl = Some l -> m <> Top /\ due s = false /\ lin s = l.
Lemma linked_none s m : linked None s m. Proof. easy. Qed.
Lemma linked_some s m : m <> Top -> due s = false -> linked (Some (lin s)) s m.
Proof. intros N D l [= <-]. easy. Qed.
Lemma past_due s m t rest : begin m = Some t -> due s = true -> past (Some (lin s)) (run s m ++ rest).
Proof. intros B D. destruct (run_begin m s t B) as (r & ->). unfold here. rewrite D. cbn. lia. Qed.
Lemma not_past vl s pl m t rest : linked vl s pl -> begin m = Some t -> ~ past vl (run s m ++ rest).
Proof. intros L B. destruct vl as [l|]; [|easy]. destruct (L l eq_refl) as (_ & D & E). destruct (run_begin m s t B) as (r & ->). unfold here. rewrite D. cbn. lia. Qed.
Lemma goes_more s m t rest : begin m = Some t -> goes More s (run s m ++ rest).
Proof. intros B. split; [|easy]. intros [|D]; [easy|]. now apply (past_due s m t). Qed.
Lemma goes_closer s m w rest : begin m = Some (op_tok (asc w)) -> In w ["end"; "elseif"; "until"]%string -> goes Closer s (run s m ++ rest).
Proof.
  intros B I. split; [intros [|D]; [easy|now apply (past_due s m _ rest B)]|]. split; [easy|]. intros _. destruct (run_begin m s _ B) as (r & ->). unfold op_tok. cbn [next_is app]. now apply in_map.
Qed.
Lemma goes_else s m rest : begin m = Some (op_tok (asc "else")) -> goes Else s (run s m ++ rest).
Proof.
  intros B. split; [intros [|D]; [easy|now apply (past_due s m _ rest B)]|]. split; [|easy]. intros _. destruct (run_begin m s _ B) as (r & ->). cbn. now left.
Qed.
(** A statement that is not the last of a shorthand keeps its line. *)
Lemma linked_after vl st m s : linked vl st m -> ok m st -> fits_st (calm m) More s -> linked vl (after st (m_st s)) m.
Proof.
  intros L O F l E. destruct (L l E) as (N & D & Ln). split; [exact N|]. destruct st as ((lv, d), l'). cbn in D, Ln. subst d l'. destruct m as [| |t]; [easy| |].
  - destruct lv; [cbn in O; easy|]. now rewrite (proj2 (even_st s)).
  - cbn in O. subst lv. cbn [calm] in F. destruct all_quiet as (_ & _ & _ & Q & _). apply Q, almost_quiet in F. now rewrite F.
Qed.
Lemma linked_else vl st m b : linked vl st m -> ok m st -> fits_blk (calm m) Else b -> linked vl (after st (m_blk b)) m.
Proof.
  intros L O F l E. destruct (L l E) as (N & D & Ln). split; [exact N|]. destruct st as ((lv, d), l'). cbn in D, Ln. subst d l'. destruct m as [| |t]; [easy| |].
  - destruct lv; [cbn in O; easy|]. now rewrite (proj2 (even_blk b)).
  - cbn in O. subst lv. cbn [calm] in F. destruct all_quiet as (_ & _ & _ & _ & Q & _). apply Q, almost_quiet in F. now rewrite F.
Qed.
(** The line at the end of the body of a shorthand. *)
Lemma line_st st m k s : due st = false -> m <> Top -> ok m st -> fits_st m k s -> lin (after st (m_st s)) = lin st.
Proof.
  intros D N O F. destruct st as ((lv, d), l'). cbn in D. subst d. destruct m as [| |t]; [easy| |].
  - destruct lv; [cbn in O; easy|]. now rewrite (proj2 (even_st s)).
  - cbn in O. subst lv. destruct all_quiet as (_ & _ & _ & Q & _). apply Q in F. destruct (F l') as (d & -> & _). reflexivity.
Qed.
Lemma line_blk st m k b : due st = false -> m <> Top -> ok m st -> fits_blk m k b -> lin (after st (m_blk b)) = lin st.
Proof.
  intros D N O F. destruct st as ((lv, d), l'). cbn in D. subst d. destruct m as [| |t]; [easy| |].
  - destruct lv; [cbn in O; easy|]. now rewrite (proj2 (even_blk b)).
  - cbn in O. subst lv. destruct all_quiet as (_ & _ & _ & _ & Q & _). apply Q in F. destruct (F l') as (d & -> & _). reflexivity.
Qed.
Lemma ends vl st rest k : goes k st rest -> (vl = Some (lin st) \/ vl = None) -> k <> More -> (vl = None -> k = Break -> rest = []) -> rest = [] \/ next_is closers rest \/ past vl rest.
Proof.
  intros (G1 & G2 & G3) V N B. destruct k; [| | |easy].
  - destruct V as [->| ->]; [right; right; auto|left; auto].
  - right. left. specialize (G2 eq_refl). destruct rest as [|([ty v|], l) r]; [easy| |easy]. cbn in *. tauto.
  - right. left. specialize (G3 eq_refl). destruct rest as [|([ty v|], l) r]; [easy| |easy]. cbn in *. tauto.
Qed.

(** In a shorthand. *)
Lemma short_state m n m' k st w M rest : enter m n = Some m' -> ok m st -> even M -> goes k (after st (short n (tw w ++ M))) rest ->
  exists st0, run st (short n (tw w ++ M)) = run st0 (tw w ++ M) /\ ok m' st0 /\ ok (if n then calm m else m') st0 /\ m' <> Top /\ goes (short_behind m n k) (after st0 (tw w ++ M)) rest /\ lin st0 = lin st /\ due st0 = due st.
Proof.
  intros E O V G. destruct n.
  - exists st. split; [reflexivity|]. destruct m as [| |t]; injection E as <-; cbn [short_behind]; repeat split; try easy; try apply G.
  - destruct st as ((lv, d), l). exists (S lv, d, l). assert (m' = Within) as -> by (destruct m; [now injection E as <-|now injection E as <-|discriminate E]). split; [|split; [easy|]; split; [easy|]; split; [easy|]; split; [|easy]].
    + unfold short. change (run (S lv, d, l) ((tw w ++ M) ++ [Close]) = run (S lv, d, l) (tw w ++ M)). rewrite run_app. cbn [run]. apply app_nil_r.
    + set (h := if d then l + 1 else l). assert (X : after (S lv, d, l) (tw w ++ M) = (S lv, false, h)) by (rewrite after_app; apply (proj2 V)). rewrite X.
      assert (Y : after (lv, d, l) (short false (tw w ++ M)) = (lv, Nat.eqb lv 0, h)).
      { unfold short. change (after (lv, d, l) (Open :: (tw w ++ M) ++ [Close])) with (after (S lv, d, l) ((tw w ++ M) ++ [Close])). rewrite after_app, X. reflexivity. }
      rewrite Y in G. destruct m as [| |t]; [| |discriminate E].
      * cbn in O. subst lv. cbn [short_behind]. destruct G as (G & _). split; [|easy]. intros _. apply G. now right.
      * cbn in O. destruct lv; [easy|]. exact G.
Qed.
Lemma hd_of P (k : behind) rest : heady P -> P (nx (hd_tok rest)) -> P rest.
Proof. intros H. apply H. now rewrite hd_nx. Qed.

Section Main.
Context (lang : language).
Notation wf := (wf lang).
Notation ap_ex := (ap_ex lang).
Notation ap_exs := (ap_exs lang).
Notation ap_its := (ap_its lang).
Notation ap_st := (ap_st lang).
Notation ap_blk := (ap_blk lang).
Notation ap_ifs := (ap_ifs lang).
Notation ap_els := (ap_els lang).
Notation u_ex := (u_ex lang).
Notation u_list := (u_list lang).
Notation u_its := (u_its lang).
Notation u_st := (u_st lang).
Notation u_blk := (u_blk lang).
Notation u_ifs := (u_ifs lang).
Notation u_els := (u_els lang).

Definition C_ex e := wf e -> ap_ex e -> forall m, fits_ex m e -> forall s rest, ok m s -> u_ex e (run s (m_ex e)) rest.
Definition C_exs e := wf_exs lang e -> ap_exs e -> forall m, fits_exs m e -> forall s rest, ok m s -> u_list e (run s (m_exs e)) rest.
Definition C_its e := wf_its lang e -> ap_its e -> forall m, fits_its m e -> forall s rest, ok m s -> u_its e (run s (m_its e)) rest.
Definition C_st s := wf_st lang s -> forall m k vl st last rest, ap_st last (hd_tok rest) s -> fits_st m k s -> ok m st -> goes k (after st (m_st s)) rest -> linked vl st m ->
  (last = true -> vl <> None /\ k <> More) -> u_st vl s (run st (m_st s)) rest.
Definition C_blk b := wf_blk lang b -> forall m k vl st short rest, ap_blk short (hd_tok rest) b -> fits_blk m k b -> ok m st -> goes k (after st (m_blk b)) rest -> linked vl st m ->
  k <> More -> (vl = None -> k = Break -> rest = []) -> (short = true -> vl <> None) -> u_blk vl b (run st (m_blk b)) rest.
Definition C_ifs i := wf_ifs lang i -> forall w m k st rest, ap_ifs (hd_tok rest) i -> fits_ifs m k i -> ok m st -> goes k (after st (m_ifs w i)) rest ->
  (word w >> u_ifs i) (run st (m_ifs w i)) rest.
Definition C_els e := (wf_els lang e -> forall m k st rest, ap_els (hd_tok rest) e -> fits_els m k e -> ok m st -> goes k (after st (m_els e)) rest -> u_els e (run st (m_els e)) rest) /\
  match e with EElse b => C_blk b | _ => True end.

Ltac evn := first [assumption|apply even_ex|apply even_exs|apply even_its|apply even_st|apply even_blk|apply even_ifs|apply even_els|apply even_params|apply even_vars|apply even_names|apply even_dotted|apply even_sep|(unfold tw, tn; evens)].
Ltac okay := rewrite ?ok_calm; repeat (apply ok_after; [evn|]); assumption.
Lemma block_end b m s w rest : C_blk b -> wf_blk lang b -> ap_blk false (Some (op_tok (asc w))) b -> fits_blk m Closer b -> ok m s -> In w ["end"; "elseif"; "until"]%string ->
  forall more, begin more = Some (op_tok (asc w)) -> u_blk None b (run s (m_blk b)) (run (after s (m_blk b)) more ++ rest).
Proof.
  intros C W A F O I more B. apply (C W m Closer None s false); try easy; [now rewrite (hd_run _ _ _ _ B)|now apply (goes_closer _ _ w)].
Qed.
Ltac leaf := first [apply word_run|apply name_run|apply tk_run|apply params_run|apply vars_run|apply names_run|apply dotted_run|apply sep_run|
  match goal with H : C_ex ?e |- u_ex ?e _ _ => eapply H; [eassumption|eassumption|eassumption|okay] end|
  match goal with H : C_exs ?e |- u_list ?e _ _ => eapply H; [eassumption|eassumption|eassumption|okay] end|
  match goal with H : C_its ?e |- u_its ?e _ _ => eapply H; [eassumption|eassumption|eassumption|okay] end|
  match goal with H : C_blk ?b |- u_blk None ?b _ _ => eapply block_end; [eassumption|eassumption|eassumption|eassumption|okay|now left|reflexivity] end].
Ltac along := repeat (apply seq_run; [leaf|]); leaf.
Ltac open_wf W := first [rewrite eq_wf_l in W|rewrite (eq_wf_exs_l lang (XCons _ _)) in W|rewrite eq_wf_its_l in W|rewrite eq_wf_st_l in W|rewrite eq_wf_ifs_l in W|rewrite eq_wf_els_l in W]; cbv iota in W.

Lemma all_emit : (forall e, C_ex e) /\ (forall e, C_exs e) /\ (forall e, C_its e) /\ (forall e, C_st e) /\ (forall e, C_blk e) /\ (forall e, C_ifs e) /\ (forall e, C_els e).
Proof.
  apply prog_all.
  - intros t W _ m _ s rest _. exists (XConst t). split; [easy|]. rewrite eq_lay_l. apply tk_run.
  - intros W _ m _ s rest _. exists XDots. split; [easy|]. rewrite eq_lay_l. apply tk_run.
  - intros x W _ m _ s rest _. exists (XVar x). split; [easy|]. rewrite eq_lay_l. apply tk_run.
  - intros ps b B W A m F s rest O. open_wf W. destruct W as (_ & W). cbn [L_Emit2.ap_ex fits_ex m_ex] in *. apply up_fun. along.
  - intros e E W A m F s rest O. open_wf W. cbn [L_Emit2.ap_ex fits_ex m_ex] in *. apply up_group. along.
  - intros op e E W A m F s rest O. open_wf W. destruct W as (_ & W & _). cbn [L_Emit2.ap_ex fits_ex m_ex] in *. apply up_un. along.
  - intros op l L r R W A m F s rest O. open_wf W. destruct W as (_ & W & W' & _). cbn [L_Emit2.ap_ex fits_ex m_ex] in *. destruct A as (A & A'), F as (F & F'). apply up_bin. along.
  - intros e E key W A m F s rest O. open_wf W. destruct W as (_ & W & _). cbn [L_Emit2.ap_ex fits_ex m_ex] in *. apply up_mem. along.
  - intros e E k K W A m F s rest O. open_wf W. destruct W as (_ & W & W'). cbn [L_Emit2.ap_ex fits_ex m_ex] in *. destruct A as (A & A'), F as (F & F'). apply up_idx. along.
  - intros f H sh args G W A m F s rest O. open_wf W. destruct W as (_ & W & W' & _). cbn [L_Emit2.ap_ex fits_ex m_ex] in *. destruct A as (A & A'), F as (F & F'). apply up_call. destruct sh; along.
  - intros e H key sh args G W A m F s rest O. open_wf W. destruct W as (_ & W & _ & W' & _). cbn [L_Emit2.ap_ex fits_ex m_ex] in *. destruct A as (A & A'), F as (F & F'). apply up_meth. destruct sh; along.
  - intros i H W A m F s rest O. open_wf W. cbn [L_Emit2.ap_ex fits_ex m_ex] in *. apply up_tab. along.
  - intros W A m F s rest O. exists XNil. split; [easy|]. rewrite eq_lay_list_l. reflexivity.
  - intros e E es H W A m F s rest O. open_wf W. destruct W as (W & W'). cbn [L_Emit2.ap_exs fits_exs m_exs] in *. destruct A as (A & A'), F as (F & F'). apply up_cons. destruct es; along.
  - intros W A m F s rest O. exists INil. split; [easy|]. rewrite eq_lay_its_l. reflexivity.
  - intros k K v V sep i H W A m F s rest O. open_wf W. destruct W as (W1 & W2 & _ & W3). cbn [L_Emit2.ap_its fits_its m_its] in *. destruct A as (A1 & A2 & A3), F as (F1 & F2 & F3). apply up_iidx. along.
  - intros key v V sep i H W A m F s rest O. open_wf W. destruct W as (_ & W2 & _ & W3). cbn [L_Emit2.ap_its fits_its m_its] in *. destruct A as (A2 & A3), F as (F2 & F3). apply up_imem. along.
  - intros e V sep i H W A m F s rest O. open_wf W. destruct W as (W2 & _ & W3). cbn [L_Emit2.ap_its fits_its m_its] in *. destruct A as (A2 & A3), F as (F2 & F3). apply up_iitem. along.
  - intros W m k vl st last rest A F O G L La. exists SSemi. split; [easy|]. rewrite eq_lay_st_l. apply tk_run.
  - intros b B W m k vl st last rest A F O G L La. open_wf W. cbn [L_Emit2.ap_st fits_st m_st] in *. apply up_do. along.
  - intros i H W m k vl st last rest A F O G L La. open_wf W. cbn [L_Emit2.ap_st fits_st m_st] in *. apply up_if. now apply (H W "if"%string m k).
  - intros c C b B W m k vl st last rest A F O G L La. open_wf W. destruct W as (W & W'). cbn [L_Emit2.ap_st fits_st m_st] in *. destruct A as (A & A'), F as (F & F'). apply up_while. along.
  - intros n c C b B W m k vl st last rest A F O G L La. open_wf W. destruct W as (W & W'). cbn [L_Emit2.ap_st fits_st m_st] in *. destruct A as (A1 & A2 & A3 & A4 & A5). destruct (enter m n) as [m'|] eqn:En; [|easy]. destruct F as (F1 & F2 & F3).
    destruct (short_state m n m' k st "while" (m_ex c ++ m_blk b) rest En O (even_app _ _ (even_ex c) (even_blk b)) G) as (st0 & -> & O' & O2 & N & G' & _).
    set (st1 := after st0 (tw "while")) in *. rewrite !run_app. rewrite !after_app in G'. fold st1 in G' |- *. destruct (paren_run c st1 A2) as (P & D). set (st2 := after st1 (m_ex c)) in *.
    assert (Hd : hd_tok (run st2 (m_blk b) ++ rest) = head_blk b (hd_tok rest)) by now apply (hd_blk lang).
    apply (up_while_short lang vl n c b (lin st2)).
    + apply word_run.
    + apply (C W A1 _ F1). apply ok_after; [evn|exact O2].
    + exact P.
    + eapply of_nx; [apply heady_follow|exact Hd|exact A3].
    + eapply (of_nx (fun r => ~ next_is _ r)); [apply heady_not, heady_next|exact Hd|exact A4].
    + apply (B W' m' (short_behind m n k) (Some (lin st2)) st2 true); try easy; [|now apply linked_some]. unfold st2, st1. repeat (apply ok_after; [evn|]). exact O'.
  - intros b B c C W m k vl st last rest A F O G L La. open_wf W. destruct W as (W & W'). cbn [L_Emit2.ap_st fits_st m_st] in *. destruct A as (A1 & A2 & A3), F as (F & F'). apply up_repeat; [|eapply of_nx; [apply heady_follow|reflexivity|exact A3]].
    apply seq_run; [leaf|]. apply seq_run; [|along]. eapply block_end; [eassumption|eassumption|eassumption|eassumption|okay|now (right; right; left)|reflexivity].
  - intros x a H z H0 step H1 b B W m k vl st last rest A F O G L La. open_wf W. destruct W as (_ & W1 & W2 & W3 & _ & W4). cbn [L_Emit2.ap_st fits_st m_st] in *. destruct A as (A1 & A2 & A3 & A4), F as (F1 & F2 & F3 & F4). apply up_for. clear G.
    assert (Ev : even (match step with XNil => [] | step => tw "," ++ m_exs step end)) by (destruct step; [apply even_nil|apply even_app; evn]).
    do 6 (apply seq_run; [leaf|]). apply seq_run; [destruct step; [reflexivity|]; along|]. along.
  - intros xs es H b B W m k vl st last rest A F O G L La. open_wf W. destruct W as (_ & _ & _ & W & W'). cbn [L_Emit2.ap_st fits_st m_st] in *. destruct A as (A & A'), F as (F & F'). apply up_for_in. along.
  - intros W m k vl st last rest A F O G L La. exists SBreak. split; [easy|]. rewrite eq_lay_st_l. apply tk_run.
  - intros es H W m k vl st last rest A F O G L La. open_wf W. cbn [L_Emit2.ap_st fits_st m_st] in *. destruct es as [|e es].
    + exists (SReturn XNil). split; [easy|]. rewrite eq_lay_st_l. apply ahead_r; [apply tk_run|]. cbn [m_exs] in *. destruct A as [A| ->]; [left; now apply (hd_of (next_is _) k _ (heady_next _))|].
      destruct (La eq_refl) as (V & K). destruct vl as [l|]; [|easy]. destruct (L l eq_refl) as (N & D & E). destruct st as ((lv, d), l0). cbn in D, E. subst d l0.
      destruct (ends (Some l) _ rest k G) as [->|[Q|Q]]; try easy; [now left|now right|left|now right]. destruct rest as [|([ty v|], l') r]; [easy| |easy]. cbn in Q |- *. tauto.
    + destruct A as (A & A'). rewrite run_app. apply up_return; [easy|apply word_run| | |now apply (hd_of (follow_list lang (XCons e es)) k _ (heady_list lang _))].
      * eapply (not_past _ _ m); [|apply begin_exs; easy]. intros l E. destruct (L l E) as (N & D & E'). split; [exact N|]. destruct st as ((lv, d), l0). cbn in D, E'. now subst d l0.
      * leaf.
  - intros xs es H W m k vl st last rest A F O G L La. open_wf W. destruct W as (_ & _ & W). cbn [L_Emit2.ap_st fits_st m_st] in *. destruct es as [|e es].
    + exists (SLocal xs XNil). split; [easy|]. rewrite eq_lay_st_l. apply seq_run; [leaf|]. apply ahead_r; [leaf|]. destruct A as (A & A'). split; [now apply (hd_of (fun r => ~ next_is _ r) k _ (heady_not _ (heady_next _)))|].
      intros X Y. apply (hd_of (fun r => ~ next_is _ r) k _ (heady_not _ (heady_next _))). now apply A'.
    + destruct A as (A & A'). apply up_local; [easy|along|]. now apply (hd_of (follow_list lang (XCons e es)) k _ (heady_list lang _)).
  - intros x ps b B W m k vl st last rest A F O G L La. open_wf W. destruct W as (_ & _ & W). cbn [L_Emit2.ap_st fits_st m_st] in *. apply up_local_fun. along.
  - intros x path meth ps b B W m k vl st last rest A F O G L La. open_wf W. destruct W as (_ & _ & _ & _ & W). cbn [L_Emit2.ap_st fits_st m_st] in *. apply up_sfun. clear G.
    assert (Ev : even (match meth with Some m => tw ":" ++ tn m | None => [] end)) by (destruct meth; [apply even_app; evn|apply even_nil]).
    do 3 (apply seq_run; [leaf|]). apply seq_run; [destruct meth; [along|reflexivity]|]. along.
  - intros x W m k vl st last rest A F O G L La. exists (SGoto x). split; [easy|]. rewrite eq_lay_st_l. cbn [m_st]. along.
  - intros x W m k vl st last rest A F O G L La. exists (SLabel x). split; [easy|]. rewrite eq_lay_st_l. cbn [m_st]. along.
  - intros targets T es H W m k vl st last rest A F O G L La. open_wf W. destruct W as (_ & W & _ & W'). cbn [L_Emit2.ap_st fits_st m_st] in *. destruct A as (A1 & A2 & A3), F as (F1 & F2). apply up_assign; [along|]. now apply (hd_of (follow_list lang es) k _ (heady_list lang _)).
  - intros target T op e H W m k vl st last rest A F O G L La. open_wf W. destruct W as (W & _ & _ & W'). cbn [L_Emit2.ap_st fits_st m_st] in *. destruct A as (A1 & A2 & A3), F as (F1 & F2). apply up_op; [along|]. now apply (hd_of (follow lang e) k _ (heady_follow lang _)).
  - intros es H W m k vl st last rest A F O G L La. open_wf W. destruct W as (_ & W). cbn [L_Emit2.ap_st fits_st m_st] in *. destruct A as (A1 & A2 & A3 & A4 & A5), F as (F1 & F2).
    assert (R : run st (short false (tw "?" ++ m_exs es)) = run (step st Open) (tw "?" ++ m_exs es)).
    { unfold short. change (run (step st Open) ((tw "?" ++ m_exs es) ++ [Close]) = run (step st Open) (tw "?" ++ m_exs es)). rewrite run_app. cbn [run]. apply app_nil_r. }
    rewrite R. assert (O' : ok Within (step st Open)) by (now destruct st as ((lv, d), l)).
    apply up_print; [along|now apply (hd_of (follow_list lang es) k _ (heady_list lang _))|now apply (hd_of stands_alone k _ heady_alone)|now apply (hd_of (fun r => ~ next_is _ r) k _ (heady_not _ (heady_next _)))|now apply (hd_of not_string k _ heady_string)].
  - intros e H W m k vl st last rest A F O G L La. open_wf W. destruct W as (_ & W). cbn [L_Emit2.ap_st fits_st m_st] in *. destruct A as (A1 & A2 & A3).
    apply up_scall; [leaf|now apply (hd_of (follow lang e) k _ (heady_follow lang _))|now apply (hd_of stands_alone k _ heady_alone)].
  - intros W m k vl st sh rest A F O G L K V Sh. cbn [m_blk] in *. apply up_bnil. apply (ends vl st rest k); try easy. destruct vl as [l|]; [left|now right]. destruct (L l eq_refl) as (_ & _ & ->). reflexivity.
  - intros s IHs b IHb W m k vl st sh rest A F O G L K V Sh. pose proof W as W0. rewrite (eq_wf_blk_l lang (BCons _ _)) in W. cbv iota in W. destruct W as (W & W'). pose proof (begin_st lang s W) as Bs.
    cbn [L_Emit2.ap_blk m_blk] in *. destruct A as (A & A'). apply up_bcons; [|apply (not_past vl st m _ (head_st s)); [exact L|now apply begin_app]].
    apply seq_run.
    + destruct b as [|s2 b2]; cbn [fits_blk m_blk head_blk] in *.
      * cbn [run app]. rewrite app_nil_r in G. apply (IHs W m k vl st sh); try easy. intros E. split; [now apply Sh|easy].
      * destruct F as (F & F'). assert (Bb : begin (m_blk (BCons s2 b2)) = Some (head_st s2)) by (now apply (begin_blk lang)).
        apply (IHs W (calm m) More vl st false); try easy; [now rewrite (hd_run _ _ _ _ Bb)|now apply ok_calm|now apply (goes_more _ _ _ _ Bb)|]. intros l E. destruct (L l E) as (N & Q). split; [|exact Q]. now destruct m.
    + rewrite after_app in G. destruct b as [|s2 b2].
      * cbn [m_blk run fits_blk] in *. apply up_bnil. apply (ends vl (after st (m_st s)) rest k); try easy. destruct vl as [l|]; [left|now right]. destruct (L l eq_refl) as (N & D & <-). f_equal. symmetry. now apply (line_st st m k).
      * cbn [fits_blk] in F. destruct F as (F & F'). apply (IHb W' m k vl _ sh); try easy; [now apply ok_after; [evn|]|now apply linked_after].
  - intros w c C b B e (E & _) W w0 m k st rest A F O G. open_wf W. destruct W as (_ & W1 & W2 & W3). cbn [L_Emit2.ap_ifs fits_ifs m_ifs] in *. destruct A as (A1 & A2 & A3), F as (F1 & F2 & F3). rewrite !after_app in G.
    apply seq_run; [leaf|]. apply up_long. do 2 (apply seq_run; [leaf|]). apply seq_run; [|apply (E W3 m k); try easy; okay].
    assert (Be : begin (m_els e) = Some (head_els e)) by (destruct e as [| |[|[]]]; reflexivity).
    apply (B W2 (calm m) (match e with EElse _ => Else | _ => Closer end) None _ false); try easy; [now rewrite (hd_run _ _ _ _ Be)|okay| |now destruct e|now destruct e].
    destruct e; [apply (goes_closer _ _ "end"); [easy|now left]|now apply goes_else|apply (goes_closer _ _ "elseif"); [exact Be|now right; left]].
  - intros n c C b B e (_ & E) W w0 m k st rest A F O G. open_wf W. destruct W as (W1 & W2 & W3 & W4). cbn [L_Emit2.ap_ifs fits_ifs m_ifs] in *. destruct A as (A1 & A2 & A3). destruct (enter m n) as [m'|] eqn:En; [|easy]. destruct F as (F1 & F2 & F3).
    set (M := match e with EElse b => short n (tw "else" ++ m_blk b) | _ => [] end) in *. assert (EM : even M) by (unfold M; destruct e; evens; evn).
    destruct (short_state m n m' k st w0 (m_ex c ++ m_blk b ++ M) rest En O (even_app _ _ (even_ex c) (even_app _ _ (even_blk b) EM)) G) as (st0 & -> & O' & O2 & N & G' & _).
    apply seq_run; [leaf|]. rewrite !after_app in G'. set (st1 := after st0 (tw w0)) in *. destruct (paren_run c st1 A2) as (P & D). rewrite !run_app. set (st2 := after st1 (m_ex c)) in *. set (st3 := after st2 (m_blk b)) in *.
    assert (Oc : ok (if n then calm m else m') st1) by (apply ok_after; [evn|exact O2]). assert (Ob : ok m' st2) by (unfold st2, st1; repeat (apply ok_after; [evn|]); exact O').
    pose proof (linked_some st2 m' N D) as Lk.
    destruct e as [|b2|i]; [| |easy]; unfold M in *; clear M EM.
    + cbn [run after fold_left] in *. rewrite app_nil_r. destruct A3 as (A3 & A4 & A5 & A6). destruct F3 as (F3 & F4).
      assert (Hd : hd_tok (run st2 (m_blk b) ++ rest) = head_blk b (hd_tok rest)) by now apply (hd_blk lang).
      apply (up_short lang n c b (lin st2)).
      * now apply (C W1 A1 _ F1).
      * exact P.
      * eapply of_nx; [apply heady_follow|exact Hd|exact A3].
      * eapply (of_nx (fun r => ~ next_is _ r)); [apply heady_not, heady_next|exact Hd|exact A4].
      * intros X. eapply (of_nx (fun r => ~ next_is _ r)); [apply heady_not, heady_next|exact Hd|now apply A5].
      * now apply (B W2 m' (short_behind m n k) (Some (lin st2)) st2 true).
      * intros (S1 & S2). destruct G' as (G1 & _ & G3). fold st3 in G1, G3. assert (Ln : lin st3 = lin st2) by (now apply (line_blk st2 m' (short_behind m n k))).
        destruct (short_behind m n k); [|easy| |easy].
        -- specialize (G1 (or_introl eq_refl)). rewrite Ln in G1. destruct rest as [|(t, l') r]; [easy|]. cbn in S1, G1. lia.
        -- specialize (G3 eq_refl). destruct rest as [|([ty v|], l') r]; [easy| |easy]. cbn in S2, G3. destruct S2 as [<-|[]]. destruct G3 as [X|[X|[X|[]]]]; discriminate X.
    + destruct A3 as (A3 & A4 & A5 & A6 & A7). destruct F3 as (F3 & F4). rewrite eq_wf_els_l in W3. cbv iota in W3.
      pose proof (linked_else _ _ _ _ Lk Ob F3) as Lk3. fold st3 in Lk3. destruct (Lk3 _ eq_refl) as (_ & D3 & Ln3).
      assert (O3 : ok m' st3) by (apply ok_after; [evn|exact Ob]).
      assert (En' : enter m' n = Some m') by (destruct m, n; try discriminate En; now injection En as <-).
      destruct (short_state m' n m' (short_behind m n k) st3 "else" (m_blk b2) rest En' O3 (even_blk b2) G') as (st4 & R & O4 & _ & _ & G4 & Ln4 & D4).
      assert (Eb : short_behind m' n (short_behind m n k) = short_behind m n k) by (destruct m, n; try discriminate En; now injection En as <-). rewrite Eb in G4. rewrite after_app in G4.
      assert (R' : run st3 (short n (tw "else" ++ m_blk b2)) = (kw "else", lin st2) :: run (after st4 (tw "else")) (m_blk b2)).
      { rewrite R, run_app. destruct st4 as ((lv4, d4), l4). cbn in Ln4, D4. rewrite D3 in D4. rewrite Ln3 in Ln4. subst d4 l4. reflexivity. }
      rewrite R'. set (st5 := after st4 (tw "else")) in *.
      assert (Lk5 : linked (Some (lin st2)) st5 m').
      { intros l [= <-]. split; [exact N|]. unfold st5. destruct st4 as ((lv4, d4), l4). cbn in Ln4, D4. rewrite D3 in D4. rewrite Ln3 in Ln4. subst d4 l4. easy. }
      assert (Hd : hd_tok (run st2 (m_blk b) ++ (kw "else", lin st2) :: run st5 (m_blk b2) ++ rest) = head_blk b (Some (op_tok (asc "else")))) by (now apply (hd_blk lang)).
      apply (up_short_else lang n c b b2 (lin st2)).
      * now apply (C W1 A1 _ F1).
      * exact P.
      * eapply of_nx; [apply heady_follow|exact Hd|exact A3].
      * eapply (of_nx (fun r => ~ next_is _ r)); [apply heady_not, heady_next|exact Hd|exact A4].
      * intros X. eapply (of_nx (fun r => ~ next_is _ r)); [apply heady_not, heady_next|exact Hd|now apply A5].
      * apply (B W2 (calm m') Else (Some (lin st2)) st2 true); try easy; [now apply ok_calm| |intros l E'; destruct (Lk l E') as (_ & Q); split; [now destruct m'|exact Q]].
        fold st3. split; [intros [|X]; [easy|congruence]|]. split; [|easy]. intros _. cbn. now left.
      * apply (E W3 m' (short_behind m n k) (Some (lin st2)) st5 true); try easy. unfold st5. apply ok_after; [evn|exact O4].
  - split; [|exact I]. intros W m k st rest A F O G. exists ENone. split; [easy|]. rewrite eq_lay_els_l. apply tk_run.
  - intros b B. split; [|exact B]. intros W m k st rest A F O G. open_wf W. cbn [L_Emit2.ap_els fits_els m_els] in *. apply up_else. along.
  - intros i H. split; [|exact I]. intros W m k st rest A F O G. open_wf W. cbn [L_Emit2.ap_els fits_els m_els] in *. apply up_elif. now apply (H W "elseif"%string m k).
Qed.
Lemma emit_program b ts : program lang b ts -> fits b -> exists b', un_blk b' = un_blk b /\ program lang b' (emit b).
Proof.
  intros P F. pose proof (program_apart lang b ts P) as A. destruct P as (W & _). destruct all_emit as (_ & _ & _ & _ & B & _).
  destruct (B b W Top Break None (0%nat, false, 1) false []) as (b' & E & L); try easy. exists b'. split; [exact E|]. split; [|exact L].
  apply (proj1 (proj2 (proj2 (proj2 (proj2 (all_wf_un lang)))))). rewrite E. now apply (proj1 (proj2 (proj2 (proj2 (proj2 (all_wf_un lang)))))).
Qed.
End Main.
