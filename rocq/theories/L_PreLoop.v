(** The preprocessor's loop against the items of S_Pre, and the code map. *)
From Verif Require Import M_Base M_Text M_Pre S_Pre L_Util L_Pre.
Open Scope nat_scope.

Lemma find_app_ {A} (f : A -> bool) a b : List.find f (a ++ b) = match List.find f a with Some x => Some x | None => List.find f b end.
Proof. induction a as [|x a IH]; cbn [app List.find]; [reflexivity|]. destruct (f x); [reflexivity|exact IH]. Qed.
Lemma find_none_all {A} (f : A -> bool) a : (forall x, In x a -> f x = false) -> List.find f a = None.
Proof.
  induction a as [|x a IH]; intros H; cbn [List.find]; [reflexivity|]. rewrite (H x) by now left. apply IH. intros y Hy. apply H. now right.
Qed.
Lemma find_map_ {A B} (g : A -> B) (f : B -> bool) a : List.find f (map g a) = option_map g (List.find (fun x => f (g x)) a).
Proof. induction a as [|x a IH]; cbn [map List.find]; [reflexivity|]. destruct (f (g x)); [reflexivity|exact IH]. Qed.

Lemma slice_ext before t after s : s <= length before ->
  text_slice (before ++ t ++ after) s (length (before ++ t)) = text_slice (before ++ t ++ after) s (length before) ++ t.
Proof.
  intros L. unfold text_slice. rewrite app_length.
  replace (length before + length t - s) with ((length before - s) + length t) by lia.
  rewrite skipn_app. replace (s - length before) with 0 by lia. cbn [skipn].
  assert (LS : length (skipn s before) = length before - s) by apply skipn_length.
  rewrite (firstn_app (length before - s + length t)), (firstn_app (length before - s)), LS.
  rewrite (firstn_all2 (skipn s before)) by lia. rewrite (firstn_all2 (skipn s before)) by lia.
  replace (length before - s + length t - (length before - s)) with (length t) by lia.
  rewrite Nat.sub_diag, (firstn_app (length t)), firstn_all, Nat.sub_diag. cbn [firstn].
  now rewrite !app_nil_r.
Qed.
Lemma slice_nil code s : text_slice code s s = [].
Proof. unfold text_slice. now rewrite Nat.sub_diag. Qed.
Lemma nth_error_slice code s e j : j < length (text_slice code s e) -> nth_error (text_slice code s e) j = nth_error code (s + j).
Proof.
  unfold text_slice. rewrite firstn_length, skipn_length. intros H.
  rewrite <- (firstn_skipn s code) at 2.
  rewrite nth_error_app2 by (rewrite firstn_length; lia). rewrite firstn_length.
  replace (s + j - Nat.min s (length code)) with j by lia.
  rewrite <- (firstn_skipn (e - s) (skipn s code)) at 2. rewrite nth_error_app1; [reflexivity|].
  rewrite firstn_length, skipn_length. lia.
Qed.

Section Loop.
Context (load : list Z -> res icart) (path code : list Z) (start_line : nat) (file : list Z -> list Z -> nat -> Prop) (named : list Z -> Prop).
Notation loop := (pre_loop load path code start_line).
Definition runs (n : nat) (st st' : pstate) : Prop := forall fuel, loop (n + fuel) st = loop fuel st'.
Lemma runs_trans n m a b c : runs n a b -> runs m b c -> runs (n + m) a c.
Proof. intros H1 H2 fuel. rewrite <- Nat.add_assoc, H1. apply H2. Qed.

(** Every index of [out] has a mapping that names a file, its text and the place there. *)
Definition good_maps (maps : list mapping) (out : list Z) : Prop :=
  forall j, j < length out -> exists m, List.find (fun m => m_idx m <=? j) (rev maps) = Some m /\
    file (m_path m) (m_code m) (m_line m) /\ nth_error (m_code m) (m_src m + (j - m_idx m)) = nth_error out j.
Definition cart_mapped (c : icart) : Prop :=
  good_maps (i_map c) (i_code c) \/ (i_map c = [] /\ file (i_path c) (i_code c) 0).
Definition incs_mapped : Prop :=
  file path code start_line /\ forall name c, named name -> read_included_cart load name = Ok c -> cart_mapped c.

Lemma gm_nil : good_maps [] [].
Proof. intros j Hj. cbn in Hj. lia. Qed.
Lemma gm_extend maps out s e : file path code start_line -> good_maps maps out ->
  good_maps (maps ++ [mkmap (length out) path code s start_line]) (out ++ text_slice code s e).
Proof.
  intros HF G j Hj. rewrite rev_app_distr, find_app_. cbn [rev app List.find m_idx].
  destruct (Nat.leb_spec (length out) j) as [L|L].
  - exists (mkmap (length out) path code s start_line). split; [reflexivity|]. split; [exact HF|]. cbn [m_idx m_src m_code].
    rewrite nth_error_app2 by exact L. rewrite app_length in Hj. now rewrite nth_error_slice by lia.
  - destruct (G j L) as (m & E & Hm & N). exists m. split; [exact E|]. split; [exact Hm|]. now rewrite nth_error_app1 by exact L.
Qed.
Lemma gm_include maps out c : cart_mapped c -> good_maps maps out ->
  good_maps (maps ++ included_map (length out) c) (out ++ i_code c).
Proof.
  intros HC G j Hj. rewrite rev_app_distr, find_app_. unfold cart_mapped, included_map in *.
  destruct (Nat.lt_ge_cases j (length out)) as [L|L].
  - destruct (G j L) as (m & E & Hm & N). exists m. split; [|split; [exact Hm|now rewrite nth_error_app1 by exact L]].
    rewrite find_none_all; [exact E|]. intros x Hx. apply in_rev in Hx.
    destruct (i_map c) as [|m0 l]; [destruct Hx as [<-|[]]; cbn [m_idx]; apply Nat.leb_gt; lia|].
    apply in_map_iff in Hx as (y & <- & _). cbn [m_idx shift_map]. apply Nat.leb_gt. lia.
  - rewrite app_length in Hj. rewrite nth_error_app2 by exact L. destruct (i_map c) as [|m0 l].
    + destruct HC as [HC|[_ HC]]; [destruct (HC (j - length out) ltac:(lia)) as (m & E & _); discriminate E|]. cbn [rev app List.find m_idx]. replace (length out <=? j) with true by (symmetry; apply Nat.leb_le; lia).
      exists (mkmap (length out) (i_path c) (i_code c) 0 0). split; [reflexivity|]. split; [exact HC|]. reflexivity.
    + destruct HC as [HC|[HC _]]; [|discriminate HC]. destruct (HC (j - length out) ltac:(lia)) as (m & E & Hm & N).
      exists (shift_map (length out) m). rewrite <- map_rev, find_map_. cbn [m_idx shift_map].
      assert (E' : List.find (fun x => length out + m_idx x <=? j) (rev (m0 :: l)) = Some m).
      { rewrite <- E. clear -L. induction (rev (m0 :: l)) as [|x t IH]; [reflexivity|]. cbn [List.find]. rewrite IH.
        replace (length out + m_idx x <=? j) with (m_idx x <=? j - length out); [reflexivity|].
        apply eq_true_iff_eq. rewrite !Nat.leb_le. lia. }
      cbn [shift_map m_idx]. rewrite E'. split; [reflexivity|]. cbn [m_path m_code m_src m_idx shift_map]. split; [exact Hm|].
      rewrite <- N. f_equal. lia.
Qed.

Record good (st : pstate) (before after out : list Z) : Prop := mkgood {
  g_code : code = before ++ after;
  g_i : p_i st = length before \/ (after = [] /\ length before <= p_i st);
  g_start : p_start st <= length before;
  g_line : p_start st <= lstart before \/ (p_start st = p_i st /\ line_end after);
  g_out : concat (p_parts st) ++ text_slice code (p_start st) (length before) = out;
  g_outi : p_out_i st = length (concat (p_parts st));
  g_maps : incs_mapped -> good_maps (p_maps st) (concat (p_parts st)) }.

Lemma lstart_le b : lstart b <= length b. Proof. unfold lstart. lia. Qed.

(** Moving over [t], which becomes output. *)
Lemma advance st before t after out : good st before (t ++ after) out -> t <> [] ->
  good (goto st (length (before ++ t))) (before ++ t) after (out ++ t).
Proof.
  intros [C I S L O OI M] N. constructor; cbn [goto p_i p_start p_parts p_out_i p_maps].
  - now rewrite <- app_assoc.
  - now left.
  - rewrite app_length. lia.
  - left. destruct L as [L|[L1 L2]]; [pose proof (lstart_app before t); lia|].
    destruct t as [|c t]; [congruence|]. destruct L2 as [L2|[u L2]]; [discriminate L2|]. cbn [app] in L2. injection L2 as -> _.
    pose proof (lstart_nl before t). lia.
  - rewrite C. rewrite slice_ext by assumption. rewrite <- C, app_assoc. now rewrite O.
  - exact OI.
  - exact M.
Qed.
Lemma flush_good st before after out : good st before after out -> p_i st = length before ->
  let st' := flush_output path code start_line st in
  p_i st' = length before /\ p_start st' = length before /\ concat (p_parts st') = out /\ p_out_i st' = length out /\
  (incs_mapped -> good_maps (p_maps st') out).
Proof.
  intros [C I S L O OI M] E. unfold flush_output. rewrite E. destruct (Nat.ltb_spec (p_start st) (length before)) as [H|H];
    cbn [p_i p_start p_parts p_out_i p_maps].
  - rewrite concat_app. cbn [concat]. rewrite app_nil_r, O. repeat split; auto.
    + rewrite OI, <- O, app_length. f_equal. unfold text_slice. rewrite firstn_length, skipn_length, C, app_length. lia.
    + intros HM. rewrite OI, <- O. apply gm_extend; [apply HM|now apply M].
  - assert (p_start st = length before) by lia. rewrite H0 in *. rewrite slice_nil, app_nil_r in O. rewrite O in *. auto.
Qed.
(** The end of the text. *)
Lemma loop_end st before out fuel : good st before [] out -> exists st', loop (S fuel) st = Ok st' /\
  concat (p_parts st') = out /\ (incs_mapped -> good_maps (p_maps st') out).
Proof.
  intros G. pose proof G as [C I S L O OI M]. cbn [pre_loop]. rewrite app_nil_r in C.
  rewrite skipn_all2 by (rewrite C; destruct I as [->|[_ I]]; lia).
  eexists. split; [reflexivity|]. unfold flush_output.
  assert (HI : length before <= p_i st) by (destruct I as [->|[_ I]]; lia).
  destruct (Nat.ltb_spec (p_start st) (p_i st)) as [H|H]; cbn [p_parts p_maps].
  - assert (ES : text_slice code (p_start st) (p_i st) = text_slice code (p_start st) (length before)).
    { unfold text_slice. rewrite !firstn_all2; [reflexivity| |]; rewrite skipn_length, C; lia. }
    rewrite concat_app. cbn [concat]. rewrite app_nil_r, ES, O. split; [reflexivity|]. intros HM. rewrite OI, <- O.
    apply gm_extend; [apply HM|now apply M].
  - assert (E1 : p_start st = length before) by lia. rewrite E1, slice_nil, app_nil_r in O. rewrite O in *. auto.
Qed.

Lemma skipn_before (before after : list Z) : skipn (length before) (before ++ after) = after.
Proof. rewrite skipn_app, skipn_all, Nat.sub_diag. reflexivity. Qed.
Lemma skipn_before2 (before after : list Z) n : skipn (length before + n) (before ++ after) = skipn n after.
Proof. rewrite skipn_app, skipn_all2 by lia. cbn [app]. f_equal. lia. Qed.
Lemma firstn_before (before after : list Z) : firstn (length before) (before ++ after) = before.
Proof. rewrite firstn_app, firstn_all, Nat.sub_diag. cbn [firstn]. apply app_nil_r. Qed.

Definition plain (c : Z) (after : list Z) : Prop :=
  c <> 34%Z /\ c <> 39%Z /\ c <> 35%Z /\ (c = 45%Z -> forall t, after <> 45%Z :: t) /\ (c = 91%Z -> forall t, after <> 91%Z :: t).
Lemma step_plain st before c after : code = before ++ c :: after -> p_i st = length before -> plain c after ->
  runs 1 st (goto st (length before + 1)).
Proof.
  intros C I (N1 & N2 & N3 & N4 & N5) fuel. cbn [Nat.add pre_loop]. rewrite I. rewrite C at 1. rewrite skipn_before.
  set (next := match after with [] => (-1)%Z | c0 :: _ => c0 end).
  assert (E1 : ((c =? 45) && (next =? 45))%Z = false).
  { destruct (Z.eqb_spec c 45) as [->|]; [|reflexivity]. destruct (Z.eqb_spec next 45) as [E|]; [|reflexivity]. exfalso.
    unfold next in E. destruct after as [|x t]; [discriminate E|]. subst x. now apply (N4 eq_refl t). }
  assert (E2 : ((c =? 91) && (next =? 91))%Z = false).
  { destruct (Z.eqb_spec c 91) as [->|]; [|reflexivity]. destruct (Z.eqb_spec next 91) as [E|]; [|reflexivity]. exfalso.
    unfold next in E. destruct after as [|x t]; [discriminate E|]. subst x. now apply (N5 eq_refl t). }
  rewrite E1, E2. replace ((c =? 34) || (c =? 39))%Z with false by lia. replace (negb (c =? 35)%Z) with true by lia. reflexivity.
Qed.
Lemma steps_blank ws : forall st before after, code = before ++ ws ++ after -> p_i st = length before -> Forall blank ws ->
  runs (length ws) st (goto st (length before + length ws)).
Proof.
  induction ws as [|c ws IH]; intros st before after C I F fuel.
  - cbn [length Nat.add]. f_equal. destruct st; cbn in *. subst. unfold goto. cbn. f_equal. lia.
  - inversion_clear F as [|? ? Hc F']. cbn [length Nat.add].
    assert (P : plain c (ws ++ after)) by (unfold plain, blank in *; repeat split; try lia).
    pose proof (step_plain st before c (ws ++ after) C I P (length ws + fuel)) as E. cbn [Nat.add] in E. rewrite E.
    rewrite (IH (goto st (length before + 1)) (before ++ [c]) after); [| |cbn; rewrite app_length; reflexivity|exact F'].
    + f_equal. unfold goto. cbn [p_i p_start p_parts p_out_i p_maps]. rewrite app_length. cbn [length]. f_equal. lia.
    + rewrite C, <- app_assoc. reflexivity.
Qed.

(** *** One item *)
Definition inc_tail (after : list Z) : Prop :=
  exists sp name rest, after = w_include ++ sp ++ name ++ rest /\ gap sp /\ inc_name name /\ line_end rest.
Lemma inc_tail_line sp name rest : gap sp -> inc_name name -> line_end rest ->
  let s := 35%Z :: w_include ++ sp ++ name ++ rest in
  line_len s = length (str_include ++ sp ++ name) /\ split_once (firstn (line_len s) s) = [str_include; name].
Proof.
  intros (G1 & G2 & G3) (N1 & N2) L s.
  assert (E : s = (str_include ++ sp ++ name) ++ rest) by (unfold s; now rewrite <- !app_assoc).
  assert (NL : no_newline (str_include ++ sp ++ name)).
  { apply Forall_app. split; [|apply Forall_app; now split].
    unfold str_include. repeat apply Forall_cons; try apply Forall_nil; discriminate. }
  rewrite E, line_len_app by assumption. split; [reflexivity|]. rewrite firstn_app, firstn_all, Nat.sub_diag. cbn [firstn].
  rewrite app_nil_r. now apply split_include.
Qed.
Lemma inc_tail_inv after name : let s := 35%Z :: after in
  split_once (firstn (line_len s) s) = [str_include; name] -> inc_tail after.
Proof.
  intros s E. destruct (line_len_split s) as (rest & Es & NL & LE).
  assert (EL : line_len s = S (line_len after)) by reflexivity. rewrite EL in *. unfold s in E. cbn [firstn] in E.
  destruct (split_include_inv _ _ E) as (sp & Q & S1 & S2 & S3).
  unfold s in Es, NL. cbn [firstn] in Es, NL. rewrite Q in Es, NL. exists sp, name, rest.
  apply Forall_app in NL as [_ NL]. apply Forall_app in NL as [NL1 NL2].
  split; [|split; [|split]]; [|now repeat split|now split|exact LE].
  rewrite <- !app_assoc in Es. exact (f_equal (fun l => tl l) Es).
Qed.
Lemma text_of_nonempty it : text_of it <> [].
Proof. destruct it; cbn [text_of app open_b]; try discriminate. destruct ws; discriminate. Qed.
Lemma good_i st before t after out : good st before (t ++ after) out -> t <> [] -> p_i st = length before.
Proof. intros G N. destruct (g_i _ _ _ _ G) as [E|[E _]]; [exact E|]. destruct t; [congruence|discriminate E]. Qed.

Lemma jump st before t after out n : good st before (t ++ after) out -> t <> [] ->
  runs n st (goto st (length (before ++ t))) -> 0 < n <= length t ->
  exists n st', 0 < n <= length t /\ runs n st st' /\ good st' (before ++ t) after (out ++ t).
Proof. intros G N R L. exists n, (goto st (length (before ++ t))). split; [exact L|]. split; [exact R|]. now apply advance. Qed.

Lemma step_comment st before u : code = before ++ [45; 45]%Z ++ u -> p_i st = length before ->
  runs 1 st (goto st (length before + 2 + match long_brackets u with Some n => n | None => line_len u end)).
Proof.
  intros C I fuel. cbn [Nat.add pre_loop]. rewrite I. rewrite C at 1. rewrite skipn_before. cbn [app].
  change ((45 =? 45) && (45 =? 45))%Z with true. cbn iota.
  assert (E : skipn (length before + 2) code = u) by (rewrite C, skipn_before2; reflexivity).
  rewrite E. destruct (long_brackets u); reflexivity.
Qed.
Lemma step_long st before u n : code = before ++ [91; 91]%Z ++ u -> p_i st = length before ->
  long_brackets ([91; 91]%Z ++ u) = Some n -> runs 1 st (goto st (length before + n)).
Proof.
  intros C I E fuel. cbn [Nat.add pre_loop]. rewrite I. rewrite C at 1. rewrite skipn_before. cbn [app] in *.
  change ((91 =? 45) && (91 =? 45))%Z with false. change ((91 =? 91) && (91 =? 91))%Z with true. cbn iota.
  rewrite C. rewrite skipn_before. rewrite E. reflexivity.
Qed.
Lemma step_stuck st before u : code = before ++ [91; 91]%Z ++ u -> p_i st = length before ->
  long_brackets ([91; 91]%Z ++ u) = None -> forall fuel, loop fuel st = Err EFuel.
Proof.
  intros C I E. induction fuel as [|fuel IH]; [reflexivity|]. cbn [pre_loop]. rewrite I. rewrite C at 1. rewrite skipn_before. cbn [app] in *.
  change ((91 =? 45) && (91 =? 45))%Z with false. change ((91 =? 91) && (91 =? 91))%Z with true. cbn iota.
  rewrite C. rewrite skipn_before. rewrite E. rewrite <- C. exact IH.
Qed.
Lemma step_quote st before q u : code = before ++ q :: u -> p_i st = length before -> q = 34%Z \/ q = 39%Z ->
  runs 1 st (goto st (length before + 1 + string_len q u)).
Proof.
  intros C I Q fuel. cbn [Nat.add pre_loop]. rewrite I. rewrite C at 1. rewrite skipn_before.
  replace (q =? 45)%Z with false by lia. replace (q =? 91)%Z with false by lia. cbn [andb].
  replace ((q =? 34) || (q =? 39))%Z with true by lia. reflexivity.
Qed.
(** A "#" that is not an include line. *)
Definition inc_before (before : list Z) : Prop := exists b ws, before = b ++ ws /\ line_begin b /\ Forall blank ws.
Lemma zeqb_list_refl l : zeqb_list l l = true. Proof. now apply zeqb_list_true. Qed.

Lemma flush_back st b ws after out : good st (b ++ ws) after out -> p_i st = length (b ++ ws) -> line_begin b -> Forall blank ws ->
  ~ line_end after ->
  exists out', out = out' ++ ws /\
  let st' := flush_output path code start_line (goto st (length b)) in
  p_start st' = length b /\ concat (p_parts st') = out' /\ p_out_i st' = length out' /\ (incs_mapped -> good_maps (p_maps st') out').
Proof.
  intros [C I S L O OI M] E HB HW NL. rewrite lstart_begin in L by (try assumption; now apply blank_nonl).
  destruct L as [L|[_ L]]; [|contradiction].
  exists (concat (p_parts st) ++ text_slice code (p_start st) (length b)).
  assert (G : good (goto st (length b)) b (ws ++ after) (concat (p_parts st) ++ text_slice code (p_start st) (length b))).
  { constructor; cbn [goto p_i p_start p_parts p_out_i p_maps].
    - now rewrite app_assoc. - now left. - exact L.
    - left. rewrite <- (app_nil_r b). rewrite lstart_begin; [exact L|exact HB|constructor].
    - reflexivity. - exact OI. - exact M. }
  split.
  - rewrite <- O, C, <- !app_assoc. rewrite (slice_ext b ws after) by exact L. now rewrite !app_assoc.
  - pose proof (flush_good _ _ _ _ G eq_refl) as (_ & F2 & F3 & F4 & F5). auto.
Qed.

Lemma step_hash st before after out : good st before (35%Z :: after) out -> p_i st = length before ->
  ~ (inc_before before /\ inc_tail after) ->
  exists st', runs 1 st st' /\ good st' (before ++ [35%Z]) after (out ++ [35%Z]).
Proof.
  intros G I NI. pose proof (g_code _ _ _ _ G) as C.
  assert (ADV : good (goto st (length before + 1)) (before ++ [35%Z]) after (out ++ [35%Z])).
  { pose proof (advance st before [35%Z] after out G ltac:(discriminate)) as A. rewrite app_length in A. exact A. }
  set (st1 := goto st (length before + 1)) in *.
  set (w := negb match after with [] => true | c :: _ => k_wspace c end && negb (match after with [] => (-1)%Z | c :: _ => c end =? 40)%Z).
  destruct (back_to_line (rev before)) as [k|] eqn:B.
  2:{ exists st1. split; [|exact ADV]. intros fuel. cbn [Nat.add pre_loop]. rewrite I. rewrite C at 1. rewrite skipn_before.
    change (35 =? 45)%Z with false. change (35 =? 91)%Z with false. change (35 =? 34)%Z with false. change (35 =? 39)%Z with false.
    change (35 =? 35)%Z with true. cbn [andb orb negb]. fold w. destruct w; [|reflexivity].
    rewrite C at 1. rewrite firstn_before, B. reflexivity. }
  destruct (back_inv _ _ B) as (b & ws & E & HB & HW & K). rewrite rev_involutive in E.
  assert (NLE : ~ line_end (35%Z :: after)) by (intros [X|[t X]]; discriminate X).
  rewrite E in G, I. destruct (flush_back st b ws (35%Z :: after) out G I HB HW NLE) as (out' & EO & F2 & F3 & F4 & F5).
  assert (EK : length before - k = length b) by (rewrite E, app_length; lia).
  assert (ADV2 : good (goto (flush_output path code start_line (goto st (length b))) (length before + 1)) (before ++ [35%Z]) after (out ++ [35%Z])).
  { constructor; cbn [goto p_i p_start p_parts p_out_i p_maps].
    - rewrite C, <- app_assoc. reflexivity.
    - left. rewrite app_length. reflexivity.
    - rewrite F2, E, !app_length. lia.
    - left. rewrite F2. rewrite E, <- app_assoc. rewrite lstart_begin; [lia|exact HB|]. apply Forall_app. split; [now apply blank_nonl|].
      apply Forall_cons; [discriminate|constructor].
    - rewrite F2, F3, EO. rewrite C. rewrite E. rewrite <- !app_assoc.
      replace (length (b ++ ws ++ [35%Z])) with (length (b ++ (ws ++ [35%Z]))) by reflexivity.
      replace (ws ++ 35%Z :: after) with ((ws ++ [35%Z]) ++ after) by (rewrite <- app_assoc; reflexivity).
      rewrite slice_ext by lia. rewrite slice_nil. reflexivity.
    - rewrite F3, F4. reflexivity.
    - rewrite F3. exact F5. }
  destruct w eqn:Q0; unfold w in Q0.
  - eexists. split; [|exact ADV2]. intros fuel. cbn [Nat.add pre_loop]. rewrite I, <- E. rewrite C at 1. rewrite skipn_before.
    change (35 =? 45)%Z with false. change (35 =? 91)%Z with false. change (35 =? 34)%Z with false. change (35 =? 39)%Z with false.
    change (35 =? 35)%Z with true. cbn [andb orb negb]. rewrite Q0.
    rewrite C at 1. rewrite firstn_before, B. rewrite C at 1 2. rewrite !skipn_before. cbn zeta. rewrite EK.
    destruct (split_once (firstn (line_len (35%Z :: after)) (35%Z :: after))) as [|w0 [|name [|]]] eqn:Q; try reflexivity.
    destruct (zeqb_list w0 str_include) eqn:W; [|reflexivity]. exfalso. apply NI. apply zeqb_list_true in W. subst w0.
    split; [|now apply inc_tail_inv in Q]. exists b, ws. auto.
  - exists st1. split; [|exact ADV]. intros fuel. cbn [Nat.add pre_loop]. rewrite I, <- E. rewrite C at 1. rewrite skipn_before.
    change (35 =? 45)%Z with false. change (35 =? 91)%Z with false. change (35 =? 34)%Z with false. change (35 =? 39)%Z with false.
    change (35 =? 35)%Z with true. cbn [andb orb negb]. rewrite Q0. reflexivity.
Qed.

Lemma step_include st before ws sp name after out :
  good st before (text_of (Include ws sp name) ++ after) out -> item_ok before (Include ws sp name) after -> named name ->
  match read_included_cart load name with
  | Ok c => exists st', runs (length ws + 1) st st' /\ good st' (before ++ text_of (Include ws sp name)) after (out ++ i_code c)
  | Err e => forall fuel, loop (length ws + 1 + fuel) st = Err e
  end.
Proof.
  intros G (HB & HW & HG & HN & HL) NM. pose proof (g_code _ _ _ _ G) as C.
  assert (I : p_i st = length before) by (eapply good_i; [exact G|apply text_of_nonempty]).
  cbn [text_of] in *. set (tail := w_include ++ sp ++ name ++ after).
  assert (ET : (ws ++ [35%Z] ++ w_include ++ sp ++ name) ++ after = ws ++ 35%Z :: tail) by (unfold tail; now rewrite <- !app_assoc).
  rewrite ET in *.
  assert (NLE : ~ line_end (35%Z :: tail)) by (intros [X|[t X]]; discriminate X).
  set (st1 := goto st (length before + length ws)).
  assert (R1 : runs (length ws) st st1) by (eapply steps_blank; eassumption).
  assert (G1 : good st1 (before ++ ws) (35%Z :: tail) (out ++ ws)).
  { destruct ws as [|c ws].
    - rewrite !app_nil_r. unfold st1. cbn [length]. rewrite Nat.add_0_r, <- I. destruct st; exact G.
    - unfold st1. rewrite <- app_length. apply advance; [exact G|discriminate]. }
  assert (I1 : p_i st1 = length (before ++ ws)) by (cbn; now rewrite app_length).
  destruct (flush_back st1 before ws (35%Z :: tail) (out ++ ws) G1 I1 HB HW NLE) as (out' & EO & F2 & F3 & F4 & F5).
  apply app_inv_tail in EO. subst out'.
  destruct (inc_tail_line sp name after HG HN HL) as [EL ES]. fold tail in EL, ES.
  assert (C1 : code = (before ++ ws) ++ 35%Z :: tail) by (rewrite C, <- app_assoc; reflexivity).
  assert (STEP : forall fuel, loop (1 + fuel) st1 =
    (c <- read_included_cart load name ;;
     let st2 := flush_output path code start_line (goto st1 (length before)) in
     let n := length (before ++ ws) + length (str_include ++ sp ++ name) in
     loop fuel (mkps n n (p_out_i st2 + length (i_code c)) (p_parts st2 ++ [i_code c]) (p_maps st2 ++ included_map (p_out_i st2) c)))).
  { assert (SK : skipn (length (before ++ ws)) code = 35%Z :: tail) by (rewrite C1; apply skipn_before).
    intros fuel. cbn [Nat.add pre_loop]. rewrite I1, SK.
    change (35 =? 45)%Z with false. change (35 =? 91)%Z with false. change (35 =? 34)%Z with false. change (35 =? 39)%Z with false.
    change (35 =? 35)%Z with true. cbn [andb orb negb].
    change (match tail with [] => true | c :: _ => k_wspace c end) with false.
    change (match tail with [] => (-1)%Z | c :: _ => c end =? 40)%Z with false. cbn [andb negb].
    rewrite C1 at 1. rewrite firstn_before. rewrite (back_ok before ws HB HW).
    cbn zeta. rewrite ES, zeqb_list_refl, EL.
    replace (length (before ++ ws) - length ws) with (length before) by (rewrite app_length; lia).
    reflexivity. }
  destruct (read_included_cart load name) as [c|e] eqn:RC.
  - cbn [bind] in STEP. cbn zeta in STEP. eexists. split; [eapply runs_trans; [exact R1|intros fuel; apply STEP]|].
    assert (EN : length (before ++ ws) + length (str_include ++ sp ++ name) = length (before ++ ws ++ [35%Z] ++ w_include ++ sp ++ name)).
    { rewrite !app_length. cbn [length str_include w_include]. lia. }
    rewrite EN. constructor; cbn [p_i p_start p_parts p_out_i p_maps].
    + rewrite C. rewrite <- app_assoc. f_equal. symmetry. exact ET.
    + now left.
    + lia.
    + right. split; [reflexivity|exact HL].
    + rewrite slice_nil, app_nil_r, concat_app. cbn [concat]. rewrite app_nil_r. now rewrite F3.
    + rewrite concat_app. cbn [concat]. rewrite app_nil_r. rewrite F3, F4, app_length. reflexivity.
    + intros HM. rewrite concat_app. cbn [concat]. rewrite app_nil_r, F3, F4. apply gm_include; [|now apply F5].
      destruct HM as [_ HM]. eapply HM; [exact NM|exact RC].
  - intros fuel. rewrite <- Nat.add_assoc. rewrite (R1 (1 + fuel)). rewrite STEP. reflexivity.
Qed.

Definition it_named (it : item) : Prop := match it with Include _ _ name => named name | _ => True end.
Lemma step_item st before it after out :
  good st before (text_of it ++ after) out -> item_ok before it after -> it_named it ->
  match replaced (read_included_cart load) i_code it with
  | Ok r => exists n st', 0 < n <= length (text_of it) /\ runs n st st' /\ good st' (before ++ text_of it) after (out ++ r)
  | Err e => exists n, n <= length (text_of it) /\ forall fuel, loop (n + fuel) st = Err e
  end.
Proof.
  intros G OK NM. pose proof (g_code _ _ _ _ G) as C.
  assert (I : p_i st = length before) by (eapply good_i; [exact G|apply text_of_nonempty]).
  destruct it as [c|q body|q body|body|n body|body| |ws sp name]; cbn [replaced].
  - cbn [text_of] in *. eapply (jump _ _ _ _ _ 1); [exact G|discriminate| |cbn; lia].
    rewrite app_length. apply (step_plain st before c after C I OK).
  - destruct OK as [Q B]. apply (jump _ _ _ _ _ 1); [exact G|discriminate| |cbn; lia]. cbn [text_of] in *.
    assert (E : (q :: body ++ [q]) ++ after = q :: (body ++ q :: after)) by (cbn [app]; now rewrite <- app_assoc).
    rewrite E in *.
    pose proof (step_quote st before q _ C I Q) as R. rewrite string_closed in R by exact B.
    replace (length (before ++ q :: body ++ [q])) with (length before + 1 + S (length body)); [exact R|].
    rewrite !app_length. cbn [length]. rewrite !app_length. cbn [length]. lia.
  - destruct OK as (Q & -> & B). cbn [text_of] in *. rewrite app_nil_r in *.
    pose proof (step_quote st before q _ C I Q) as R.
    assert (LEN : length body < string_len q body) by (apply string_open; [exact B|lia]).
    exists 1, (goto st (length before + 1 + string_len q body)). split; [cbn; lia|]. split; [exact R|].
    rewrite <- (app_nil_r (q :: body)) in G.
    pose proof (advance st before (q :: body) [] out G ltac:(discriminate)) as A. destruct A as [A1 A2 A3 A4 A5 A6 A7].
    constructor; cbn [goto p_i p_start p_parts p_out_i p_maps] in *; try assumption.
    + right. split; [reflexivity|]. rewrite app_length. cbn [length]. lia.
    + destruct A4 as [A4|[A4 _]]; [now left|]. left. destruct (g_line _ _ _ _ G) as [L|[L1 L2]].
      * pose proof (lstart_app before (q :: body)). lia.
      * exfalso. destruct L2 as [L2|[t L2]]; cbn [app] in L2; [discriminate L2|]. injection L2 as L2 _. lia.
  - destruct OK as (NL & LE & NB). apply (jump _ _ _ _ _ 1); [exact G|discriminate| |cbn; lia]. cbn [text_of] in *.
    rewrite <- app_assoc in *. pose proof (step_comment st before (body ++ after) C I) as R.
    apply long_brackets_none in NB. rewrite NB, line_len_app in R by assumption.
    replace (length (before ++ [45; 45]%Z ++ body)) with (length before + 2 + length body); [exact R|].
    rewrite !app_length. cbn [length]. lia.
  - cbn [item_ok] in OK. apply (jump _ _ _ _ _ 1); [exact G|discriminate| |cbn; lia]. cbn [text_of] in *.
    rewrite <- app_assoc in *. pose proof (step_comment st before _ C I) as R.
    rewrite <- !app_assoc in R. rewrite long_closed in R by exact OK.
    replace (length (before ++ [45; 45]%Z ++ open_b n ++ body ++ close_b n)) with (length before + 2 + length (open_b n ++ body ++ close_b n)); [exact R|].
    rewrite (app_length before), (app_length [45; 45]%Z). cbn [length]. lia.
  - cbn [item_ok] in OK. apply (jump _ _ _ _ _ 1); [exact G|discriminate| |cbn; lia]. cbn [text_of] in *.
    assert (E : (open_b 0 ++ body ++ close_b 0) ++ after = [91; 91]%Z ++ body ++ close_b 0 ++ after) by (cbn [open_b eqs repeat app]; now rewrite <- app_assoc).
    rewrite E in C. rewrite (app_length before). eapply step_long; [exact C|exact I|].
    change [91; 91]%Z with (open_b 0). now apply long_closed.
  - cbn [text_of app] in *. destruct (step_hash st before after out G I OK) as (st' & R & G'). exists 1, st'. split; [cbn; lia|]. now split.
  - pose proof (step_include st before ws sp name after out G OK NM) as H. destruct (read_included_cart load name) as [c|e]; cbn [bind].
    + destruct H as (st' & R & G'). exists (length ws + 1), st'. split; [|now split]. cbn [text_of]. rewrite !app_length. cbn [length]. lia.
    + exists (length ws + 1). split; [|exact H]. cbn [text_of]. rewrite !app_length. cbn [length]. lia.
Qed.

Lemma loop_items items : forall st before rest out, good st before (texts items ++ rest) out -> items_ok before items rest ->
  Forall it_named items ->
  match output_of (read_included_cart load) i_code items with
  | Ok r => exists n st', n <= length (texts items) /\ runs n st st' /\ good st' (before ++ texts items) rest (out ++ r)
  | Err e => exists n, n <= length (texts items) /\ forall fuel, loop (n + fuel) st = Err e
  end.
Proof.
  induction items as [|it items IH]; intros st before rest out G OK NM; cbn [output_of].
  - exists 0, st. split; [cbn; lia|]. split; [now intros fuel|]. unfold texts in *. cbn [map concat] in *. now rewrite !app_nil_r.
  - inversion_clear OK as [|? ? ? ? OK1 OK2]. inversion_clear NM as [|? ? NM1 NM2].
    assert (ET : texts (it :: items) = text_of it ++ texts items) by reflexivity. rewrite ET in *. rewrite <- app_assoc in G.
    pose proof (step_item st before it (texts items ++ rest) out G OK1 NM1) as H.
    destruct (replaced (read_included_cart load) i_code it) as [r|e]; cbn [bind].
    + destruct H as (n & st1 & Ln & R1 & G1). specialize (IH st1 (before ++ text_of it) rest (out ++ r) G1 OK2 NM2).
      destruct (output_of (read_included_cart load) i_code items) as [rs|e]; cbn [bind].
      * destruct IH as (m & st2 & Lm & R2 & G2). exists (n + m), st2. rewrite app_length. split; [lia|].
        split; [eapply runs_trans; eassumption|]. now rewrite !app_assoc.
      * destruct IH as (m & Lm & R2). exists (n + m). rewrite app_length. split; [lia|]. intros fuel. rewrite <- Nat.add_assoc, R1. apply R2.
    + destruct H as (n & Ln & R1). exists n. rewrite app_length. split; [lia|exact R1].
Qed.
Lemma good_init rest items : code = texts items ++ rest -> good (mkps 0 0 0 [] []) [] (texts items ++ rest) [].
Proof.
  intros C. constructor; cbn; auto; try lia. intros _. apply gm_nil.
Qed.

Theorem preprocess_items items : code = texts items -> items_ok [] items [] -> Forall it_named items -> forall fuel, length code < fuel ->
  match output_of (read_included_cart load) i_code items with
  | Ok out => exists maps, preprocess_code load path code start_line fuel = Ok (out, maps) /\ (incs_mapped -> good_maps maps out)
  | Err e => preprocess_code load path code start_line fuel = Err e
  end.
Proof.
  intros C OK NM fuel LF. unfold preprocess_code. rewrite <- (app_nil_r (texts items)) in C.
  pose proof (loop_items items _ _ _ _ (good_init [] items C) OK NM) as H.
  assert (LC : length code = length (texts items)) by (rewrite C, app_nil_r; reflexivity).
  destruct (output_of (read_included_cart load) i_code items) as [out|e].
  - destruct H as (n & st' & Ln & R & G). cbn [app] in G. destruct (fuel - n) as [|f] eqn:EF; [lia|].
    destruct (loop_end st' (texts items) out f G) as (st2 & E & O & M). exists (p_maps st2).
    replace fuel with (n + S f) by lia. rewrite R, E. cbn [bind]. rewrite O. now split.
  - destruct H as (n & Ln & R). replace fuel with (n + (fuel - n)) by lia. rewrite R. reflexivity.
Qed.
(** Text that ends in an unclosed "[[" is never finished. *)
Theorem preprocess_stuck items u : code = texts items ++ [91; 91]%Z ++ u -> items_ok [] items ([91; 91]%Z ++ u) ->
  Forall it_named items -> ~ long_start ([91; 91]%Z ++ u) -> (exists out, output_of (read_included_cart load) i_code items = Ok out) ->
  forall fuel, preprocess_code load path code start_line fuel = Err EFuel.
Proof.
  intros C OK NM NL [out EO] fuel. unfold preprocess_code.
  pose proof (loop_items items _ _ _ _ (good_init _ items C) OK NM) as H. rewrite EO in H.
  destruct H as (n & st' & Ln & R & G). cbn [app] in G. apply long_brackets_none in NL.
  assert (I : p_i st' = length (texts items)) by (destruct (g_i _ _ _ _ G) as [E|[E _]]; [exact E|discriminate E]).
  assert (E : forall fuel, loop fuel st' = Err EFuel) by (eapply step_stuck; eassumption).
  destruct (Nat.le_gt_cases n fuel) as [L|L].
  - replace fuel with (n + (fuel - n)) by lia. rewrite R, E. reflexivity.
  - (* fewer steps than the items need: more fuel does not change a finished run *)
    assert (MONO : forall f g st, loop f st <> Err EFuel -> loop (f + g) st = loop f st).
    { clear. induction f as [|f IH]; intros g st H; [cbn in H; congruence|]. cbn [Nat.add pre_loop] in *.
      destruct (skipn (p_i st) code) as [|ch t]; [reflexivity|].
      destruct ((ch =? 45) && _)%Z.
      { destruct (long_brackets _); now apply IH. }
      destruct ((ch =? 91) && _)%Z.
      { destruct (long_brackets _); now apply IH. }
      destruct ((ch =? 34) || _)%Z; [now apply IH|].
      destruct (negb (ch =? 35)%Z); [now apply IH|].
      destruct (negb _ && negb _); [|now apply IH].
      destruct (back_to_line _); [|now apply IH].
      destruct (split_once _) as [|w [|name [|]]]; try (now apply IH).
      destruct (zeqb_list w str_include); [|now apply IH].
      destruct (read_included_cart load name) as [c|e]; cbn [bind] in *; [now apply IH|reflexivity]. }
    destruct (loop fuel (mkps 0 0 0 [] [])) as [x|e] eqn:Q.
    + pose proof (MONO fuel (n - fuel) (mkps 0 0 0 [] [])) as M1. rewrite Q in M1. specialize (M1 ltac:(discriminate)).
      replace (fuel + (n - fuel)) with (n + 0) in M1 by lia. rewrite R, E in M1. discriminate M1.
    + cbn [bind]. destruct e; try reflexivity; (pose proof (MONO fuel (n - fuel) (mkps 0 0 0 [] [])) as M1; rewrite Q in M1; specialize (M1 ltac:(discriminate));
      replace (fuel + (n - fuel)) with (n + 0) in M1 by lia; rewrite R, E in M1; discriminate M1).
Qed.
End Loop.
