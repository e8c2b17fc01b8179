(** Lemmas on the preprocessor. *)
From Verif Require Import M_Base M_Text M_Pre S_Pre L_Util.
Open Scope nat_scope.

(** *** Searching *)
Lemma starts_with_spec p s : M_Text.starts_with p s = true <-> exists t, s = p ++ t.
Proof.
  unfold M_Text.starts_with. rewrite zeqb_list_true. split.
  - intros E. exists (skipn (length p) s). rewrite E at 1. now rewrite firstn_skipn.
  - intros [t ->]. rewrite firstn_app, firstn_all, Nat.sub_diag. cbn. now rewrite app_nil_r.
Qed.
Lemma find_some sub s k : find sub s = Some k -> exists a b, s = a ++ sub ++ b /\ length a = k.
Proof.
  revert k. induction s as [|c t IH]; intros k E; cbn [find] in E.
  - destruct (M_Text.starts_with sub []) eqn:Q; [|discriminate E]. injection E as <-.
    apply starts_with_spec in Q as [u Q]. exists [], u. now split.
  - destruct (M_Text.starts_with sub (c :: t)) eqn:Q.
    + injection E as <-. apply starts_with_spec in Q as [u Q]. exists [], u. now split.
    + destruct (find sub t) as [j|]; [|discriminate E]. injection E as <-.
      destruct (IH j eq_refl) as (a & b & -> & L). exists (c :: a), b. split; [reflexivity|cbn; lia].
Qed.
Lemma find_min sub a b : exists k, find sub (a ++ sub ++ b) = Some k /\ k <= length a.
Proof.
  induction a as [|c a IH]; cbn [app].
  - exists 0. split; [|cbn; lia]. assert (Q : M_Text.starts_with sub (sub ++ b) = true) by (apply starts_with_spec; eauto).
    destruct (sub ++ b); cbn [find]; now rewrite Q.
  - cbn [find]. destruct (M_Text.starts_with sub (c :: a ++ sub ++ b)); [exists 0; split; [reflexivity|lia]|].
    destruct IH as (k & -> & L). exists (S k). split; [reflexivity|cbn; lia].
Qed.
Lemma find_none sub s : find sub s = None -> forall a b, s <> a ++ sub ++ b.
Proof. intros E a b ->. destruct (find_min sub a b) as (k & K & _). congruence. Qed.

Lemma app_len_eq {A} (a b c d : list A) : a ++ b = c ++ d -> length a = length c -> a = c /\ b = d.
Proof.
  revert c. induction a as [|x a IH]; intros [|y c] E L; cbn in *; try discriminate; [auto|].
  injection E as -> E. injection L as L. destruct (IH c E L) as [-> ->]. auto.
Qed.
Lemma app_len_le {A} (a b c d : list A) : a ++ b = c ++ d -> length a <= length c -> exists e, c = a ++ e /\ b = e ++ d.
Proof.
  revert c. induction a as [|x a IH]; intros c E L; cbn [app length] in *.
  - exists c. auto.
  - destruct c as [|y c]; cbn [length app] in *; [lia|]. injection E as -> E. destruct (IH c E ltac:(lia)) as (e & -> & ->).
    exists e. auto.
Qed.
Lemma find_first close body rest : first_close close body -> find close (body ++ close ++ rest) = Some (length body).
Proof.
  intros F. destruct (find_min close body rest) as (k & E & L). rewrite E. f_equal.
  destruct (find_some _ _ _ E) as (a & b & Q & <-).
  assert (L2 : length (a ++ close) <= length (body ++ close)) by (rewrite !app_length; lia).
  assert (Q' : (a ++ close) ++ b = (body ++ close) ++ rest) by (rewrite <- !app_assoc; now symmetry).
  destruct (app_len_le _ _ _ _ Q' L2) as (e & Q2 & _). rewrite <- app_assoc in Q2. pose proof (F _ _ Q2) as ->.
  apply (f_equal (@length Z)) in Q2. rewrite !app_length in Q2. cbn in Q2. lia.
Qed.
Lemma find_is_first close s k : find close s = Some k -> exists body rest, s = body ++ close ++ rest /\ length body = k /\ first_close close body.
Proof.
  intros E. destruct (find_some _ _ _ E) as (a & b & -> & L). exists a, b. split; [reflexivity|]. split; [exact L|].
  intros a' b' Q. destruct b' as [|x b']; [reflexivity|exfalso].
  destruct (find_min close a' ((x :: b') ++ b)) as (j & Ej & Lj).
  rewrite !app_assoc in Ej, E. rewrite !app_assoc in Q. rewrite <- app_assoc in Q.
  replace ((a' ++ close) ++ (x :: b') ++ b) with ((a ++ close) ++ b) in Ej
    by (rewrite Q, <- !app_assoc; reflexivity).
  rewrite <- !app_assoc in *. assert (j = k) by congruence. subst j.
  apply (f_equal (@length Z)) in Q. rewrite !app_length in Q. cbn in Q. lia.
Qed.

(** *** Long brackets *)
Lemma count_eq_app n u c : c <> 61%Z -> count_eq (eqs n ++ c :: u) = n.
Proof.
  intros N. induction n; cbn [eqs repeat app count_eq]; [destruct (Z.eqb_spec c 61); congruence|].
  change (61 =? 61)%Z with true. cbn iota. f_equal. exact IHn.
Qed.
Lemma eqs_len n : length (eqs n) = n. Proof. apply repeat_length. Qed.
Lemma close_b_eq n : close_bracket n = close_b n. Proof. reflexivity. Qed.
Lemma open_b_len n : length (open_b n) = n + 2.
Proof. unfold open_b. cbn [length]. rewrite app_length, eqs_len. cbn. lia. Qed.
Lemma close_b_len n : length (close_b n) = n + 2.
Proof. unfold close_b. cbn [length]. rewrite app_length, eqs_len. cbn. lia. Qed.
Lemma long_open n u : long_brackets (open_b n ++ u) =
  match find (close_b n) u with Some k => Some (length (open_b n) + k + length (close_b n)) | None => None end.
Proof.
  unfold open_b. cbn [app long_brackets]. change (91 =? 91)%Z with true. cbn iota.
  rewrite <- app_assoc. cbn [app]. rewrite count_eq_app by discriminate.
  rewrite skipn_app, eqs_len, Nat.sub_diag. rewrite skipn_all2 by (rewrite eqs_len; lia). cbn [app skipn].
  change (91 =? 91)%Z with true. cbn iota. rewrite close_b_eq. destruct (find (close_b n) u); [|reflexivity].
  f_equal. cbn [length]. rewrite app_length, eqs_len, close_b_len. cbn [length]. lia.
Qed.
Lemma count_eq_split s : s = eqs (count_eq s) ++ skipn (count_eq s) s.
Proof.
  induction s as [|c t IH]; [reflexivity|]. cbn [count_eq]. destruct (Z.eqb_spec c 61) as [->|]; [|reflexivity].
  cbn [eqs repeat app skipn]. f_equal. exact IH.
Qed.
Lemma long_brackets_open s k : long_brackets s = Some k -> exists n u, s = open_b n ++ u.
Proof.
  destruct s as [|o t]; cbn [long_brackets]; [discriminate|]. destruct (Z.eqb_spec o 91) as [->|]; [|discriminate].
  cbn zeta. intros E. exists (count_eq t). pose proof (count_eq_split t) as Q.
  destruct (skipn (count_eq t) t) as [|o2 u]; [discriminate E|]. destruct (Z.eqb_spec o2 91) as [->|]; [|discriminate E].
  exists u. unfold open_b. cbn [app]. rewrite <- app_assoc. cbn [app]. now rewrite <- Q.
Qed.
Lemma long_brackets_some s k : long_brackets s = Some k ->
  exists n body rest, s = (open_b n ++ body ++ close_b n) ++ rest /\ length (open_b n ++ body ++ close_b n) = k /\ first_close (close_b n) body.
Proof.
  intros E. destruct (long_brackets_open s k E) as (n & u & ->). rewrite long_open in E.
  destruct (find (close_b n) u) as [j|] eqn:Q; [|discriminate E]. injection E as <-.
  destruct (find_is_first _ _ _ Q) as (body & rest & -> & <- & F). exists n, body, rest.
  split; [now rewrite <- !app_assoc|]. split; [rewrite !app_length, open_b_len, close_b_len, eqs_len; cbn [length]; lia|exact F].
Qed.
Lemma long_brackets_none s : long_brackets s = None <-> ~ long_start s.
Proof.
  split.
  - intros E (n & body & rest & ->). rewrite long_open in E. destruct (find_min (close_b n) body rest) as (k & Q & _).
    rewrite Q in E. discriminate E.
  - intros N. destruct (long_brackets s) as [k|] eqn:E; [|reflexivity]. exfalso. apply N.
    destruct (long_brackets_some s k E) as (n & body & rest & -> & _). exists n, body, rest. now rewrite <- !app_assoc.
Qed.
Lemma long_closed n body rest : first_close (close_b n) body ->
  long_brackets (open_b n ++ body ++ close_b n ++ rest) = Some (length (open_b n ++ body ++ close_b n)).
Proof. intros F. rewrite long_open, find_first by exact F. f_equal. rewrite !app_length. lia. Qed.

(** *** Lines, strings *)
Lemma line_len_app s after : no_newline s -> line_end after -> line_len (s ++ after) = length s.
Proof.
  induction s as [|c s IH]; intros N E; cbn [app line_len length].
  - destruct E as [->|[t ->]]; reflexivity.
  - inversion_clear N. destruct (Z.eqb_spec c 10); [contradiction|]. now rewrite IH.
Qed.
Lemma line_len_split s : exists rest, s = firstn (line_len s) s ++ rest /\ no_newline (firstn (line_len s) s) /\ line_end rest.
Proof.
  induction s as [|c t (rest & E & N & L)]; cbn [line_len].
  - exists []. repeat split; [constructor|left; reflexivity].
  - destruct (Z.eqb_spec c 10) as [->|Nc].
    + exists (10%Z :: t). repeat split; [constructor|right; eauto].
    + exists rest. cbn [firstn app]. split; [congruence|]. split; [now constructor|assumption].
Qed.
Lemma string_closed q body after : quoted_body q body -> string_len q (body ++ q :: after) = S (length body).
Proof.
  induction 1 as [|c b N1 N2 _ IH|c b N _ IH]; cbn [app string_len length].
  - now rewrite Z.eqb_refl.
  - destruct (Z.eqb_spec c q); [contradiction|]. destruct (Z.eqb_spec c 92); [contradiction|]. now rewrite IH.
  - destruct (Z.eqb_spec 92 q); [contradiction|]. change (92 =? 92)%Z with true. cbn iota. cbn [app]. rewrite IH. lia.
Qed.
Lemma string_open q body : (quoted_body q body \/ exists b, body = b ++ [92%Z] /\ quoted_body q b) -> 92%Z <> q ->
  length body < string_len q body.
Proof.
  intros H N. assert (G : forall b, quoted_body q b -> length b < string_len q b /\ length (b ++ [92%Z]) < string_len q (b ++ [92%Z])).
  { induction 1 as [|c b N1 N2 _ IH|c b N1 _ IH]; cbn [app string_len length].
    - destruct (Z.eqb_spec 92 q); [contradiction|]. cbn. lia.
    - destruct (Z.eqb_spec c q); [contradiction|]. destruct (Z.eqb_spec c 92); [contradiction|]. lia.
    - destruct (Z.eqb_spec 92 q); [contradiction|]. change (92 =? 92)%Z with true. cbn iota. cbn [app]. lia. }
  destruct H as [H|(b & -> & H)]; now apply G.
Qed.
Lemma string_cases q : 92%Z <> q -> forall s, (exists body rest, s = body ++ q :: rest /\ quoted_body q body) \/
  (quoted_body q s \/ exists b, s = b ++ [92%Z] /\ quoted_body q b).
Proof.
  intros Nq. assert (G : forall n s, length s <= n -> (exists body rest, s = body ++ q :: rest /\ quoted_body q body) \/
    (quoted_body q s \/ exists b, s = b ++ [92%Z] /\ quoted_body q b)).
  { induction n; intros [|c t] L; cbn [length] in L; try lia; try (right; left; now constructor).
    destruct (Z.eq_dec c q) as [->|N1]; [left; exists [], t; split; [reflexivity|constructor]|].
    destruct (Z.eq_dec c 92) as [->|N2].
    - destruct t as [|d t]; [right; right; exists []; split; [reflexivity|constructor]|]. cbn [length] in L.
      destruct (IHn t ltac:(lia)) as [(body & rest & -> & Q)|[Q|(b & -> & Q)]].
      + left. exists (92%Z :: d :: body), rest. split; [reflexivity|now constructor].
      + right. left. now constructor.
      + right. right. exists (92%Z :: d :: b). split; [reflexivity|now constructor].
    - destruct (IHn t ltac:(lia)) as [(body & rest & -> & Q)|[Q|(b & -> & Q)]].
      + left. exists (c :: body), rest. split; [reflexivity|now constructor].
      + right. left. now constructor.
      + right. right. exists (c :: b). split; [reflexivity|now constructor]. }
  intros s. exact (G (length s) s (le_n _)).
Qed.

(** *** The directive *)
Lemma isspace_spec c : py_isspace c = true <-> space_char c.
Proof. unfold py_isspace, space_char. lia. Qed.
Lemma isspace_false c : py_isspace c = false <-> ~ space_char c.
Proof. unfold py_isspace, space_char. lia. Qed.
Lemma lstrip_spec s : exists sp, s = sp ++ lstrip s /\ Forall space_char sp /\
  (lstrip s = [] \/ exists c t, lstrip s = c :: t /\ ~ space_char c).
Proof.
  induction s as [|c t (sp & E & F & H)]; cbn [lstrip].
  - exists []. split; [reflexivity|]. split; [constructor|now left].
  - destruct (py_isspace c) eqn:Q.
    + exists (c :: sp). cbn [app]. split; [congruence|]. split; [constructor; [now apply isspace_spec|assumption]|assumption].
    + exists []. split; [reflexivity|]. split; [constructor|]. right. exists c, t. split; [reflexivity|]. now apply isspace_false.
Qed.
Lemma lstrip_app sp c t : Forall space_char sp -> ~ space_char c -> lstrip (sp ++ c :: t) = c :: t.
Proof.
  intros F N. induction F as [|x sp Hx _ IH]; cbn [app lstrip].
  - now rewrite (proj2 (isspace_false c) N).
  - now rewrite (proj2 (isspace_spec x) Hx).
Qed.
Lemma word_len_app w sp : Forall (fun c => ~ space_char c) w -> (exists c t, sp = c :: t /\ space_char c) -> word_len (w ++ sp) = length w.
Proof.
  intros F (c & t & -> & H). induction F as [|x w Hx _ IH]; cbn [app word_len length].
  - now rewrite (proj2 (isspace_spec c) H).
  - rewrite (proj2 (isspace_false x) Hx). now rewrite IH.
Qed.
Lemma include_word : Forall (fun c => ~ space_char c) str_include.
Proof. unfold str_include. repeat apply Forall_cons; try apply Forall_nil; unfold space_char; lia. Qed.
Lemma split_include sp name : sp <> [] -> Forall space_char sp -> (exists c t, name = c :: t /\ ~ space_char c) ->
  split_once (str_include ++ sp ++ name) = [str_include; name].
Proof.
  intros N F (c & t & -> & Hc). unfold split_once.
  assert (E1 : lstrip (str_include ++ sp ++ c :: t) = str_include ++ sp ++ c :: t) by reflexivity.
  rewrite E1. cbn zeta.
  assert (E2 : word_len (str_include ++ sp ++ c :: t) = 8).
  { rewrite word_len_app; [reflexivity|apply include_word|]. destruct sp as [|x sp]; [congruence|]. inversion_clear F.
    exists x, (sp ++ c :: t). now split. }
  rewrite E2. change (skipn 8 (str_include ++ sp ++ c :: t)) with (sp ++ c :: t).
  change (firstn 8 (str_include ++ sp ++ c :: t)) with str_include. rewrite lstrip_app by assumption. reflexivity.
Qed.
Lemma split_include_inv v name : split_once (35%Z :: v) = [str_include; name] ->
  exists sp, 35%Z :: v = str_include ++ sp ++ name /\ sp <> [] /\ Forall space_char sp /\ (exists c t, name = c :: t /\ ~ space_char c).
Proof.
  unfold split_once. change (lstrip (35%Z :: v)) with (35%Z :: v). cbn zeta. set (s := 35%Z :: v). set (n := word_len s).
  intros E. destruct (lstrip_spec (skipn n s)) as (sp & E1 & F & H).
  assert (W : firstn n s = str_include /\ lstrip (skipn n s) = name).
  { unfold s in E. fold s in E. destruct (lstrip (skipn n s)) as [|c t]; [discriminate E|].
    split; [exact (f_equal (fun l => hd [] l) E)|exact (f_equal (fun l => nth 1 l []) E)]. }
  destruct W as [W1 W2]. exists sp. rewrite <- W2, <- E1, <- W1, firstn_skipn. split; [reflexivity|].
  destruct H as [H|H].
  { exfalso. unfold s in E. fold s in E. rewrite H in E. discriminate E. }
  split; [|split; assumption]. intros ->. cbn [app] in E1. destruct H as (c & t & H & Hc).
  assert (K : forall s, exists w, firstn (word_len s) s = w /\ (skipn (word_len s) s = [] \/ exists c t, skipn (word_len s) s = c :: t /\ space_char c)).
  { clear. induction s as [|c t (w & _ & K)]; cbn [word_len].
    - exists []. split; [reflexivity|now left].
    - destruct (py_isspace c) eqn:Q; cbn [firstn skipn]; eexists; (split; [reflexivity|]); [right|exact K].
      exists c, t. split; [reflexivity|now apply isspace_spec]. }
  destruct (K s) as (_ & _ & [K1|(c' & t' & K1 & K2)]); fold n in K1; rewrite E1, H in K1.
  - discriminate K1.
  - injection K1 as -> ->. contradiction.
Qed.

(** *** Back to the start of the line *)
Lemma kw_blank c : k_wspace c = true <-> blank c \/ c = 10%Z.
Proof. unfold k_wspace, blank. lia. Qed.
Lemma back_ok b ws : line_begin b -> Forall blank ws -> back_to_line (rev (b ++ ws)) = Some (length ws).
Proof.
  intros Hb. induction ws as [|c ws IH] using rev_ind; intros F.
  - rewrite app_nil_r. destruct Hb as [->|[t ->]]; [reflexivity|]. rewrite rev_app_distr. reflexivity.
  - apply Forall_app in F as [F1 F2]. pose proof (Forall_inv F2) as Hc. rewrite app_assoc, rev_app_distr. cbn [rev app back_to_line].
    rewrite (proj2 (kw_blank c)) by now left. replace (c =? 10)%Z with false by (unfold blank in Hc; lia).
    rewrite IH by assumption. cbn [option_map]. rewrite app_length. cbn [length]. f_equal. lia.
Qed.
Lemma back_inv r k : back_to_line r = Some k -> exists b ws, rev r = b ++ ws /\ line_begin b /\ Forall blank ws /\ length ws = k.
Proof.
  revert k. induction r as [|c r IH]; intros k E; cbn [back_to_line] in E.
  - injection E as <-. exists [], []. repeat split; [left; reflexivity|constructor].
  - destruct (k_wspace c) eqn:K; [|discriminate E]. apply kw_blank in K. destruct (Z.eqb_spec c 10) as [->|N].
    + injection E as <-. exists (rev r ++ [10%Z]), []. rewrite app_nil_r. repeat split; [right; eauto|constructor].
    + destruct (back_to_line r) as [j|]; [|discriminate E]. injection E as <-.
      destruct (IH j eq_refl) as (b & ws & E2 & L & F & <-). exists b, (ws ++ [c]). cbn [rev]. rewrite E2, <- app_assoc.
      split; [reflexivity|]. split; [assumption|]. split; [|rewrite app_length; cbn; lia].
      apply Forall_app. split; [assumption|]. constructor; [|constructor]. destruct K; [assumption|contradiction].
Qed.
(** Where the current line starts. *)
Definition lstart (before : list Z) : nat := length before - line_len (rev before).
Lemma line_len_le s : line_len s <= length s.
Proof. induction s as [|c t IH]; cbn [line_len length]; [lia|]. destruct (c =? 10)%Z; lia. Qed.
Lemma line_len_app_le a b : line_len (a ++ b) <= length a + line_len b.
Proof. induction a as [|c a IH]; cbn [app line_len length]; [lia|]. destruct (c =? 10)%Z; lia. Qed.
Lemma lstart_app b t : lstart b <= lstart (b ++ t).
Proof.
  unfold lstart. rewrite rev_app_distr, app_length. pose proof (line_len_app_le (rev t) (rev b)) as H. rewrite rev_length in H.
  pose proof (line_len_le (rev b)) as K. rewrite rev_length in K. lia.
Qed.
Lemma line_len_nl a b : line_len (a ++ 10%Z :: b) <= length a.
Proof. induction a as [|c a IH]; cbn [app line_len length]; [change (10 =? 10)%Z with true; cbn iota; lia|]. destruct (c =? 10)%Z; lia. Qed.
Lemma lstart_nl b t : length b < lstart (b ++ 10%Z :: t).
Proof.
  unfold lstart. rewrite rev_app_distr. cbn [rev]. rewrite <- app_assoc. cbn [app].
  pose proof (line_len_nl (rev t) (rev b)) as H. rewrite rev_length in H. rewrite app_length. cbn [length]. lia.
Qed.
Lemma blank_nonl ws : Forall blank ws -> no_newline ws.
Proof. intros F. eapply Forall_impl; [|exact F]. unfold blank. intros c Hc. cbn beta. lia. Qed.
Lemma lstart_begin b ws : line_begin b -> no_newline ws -> lstart (b ++ ws) = length b.
Proof.
  intros Hb F. unfold lstart. rewrite rev_app_distr, line_len_app.
  - rewrite app_length, rev_length. lia.
  - unfold no_newline in *. rewrite Forall_forall in *. intros x Hx. apply F. now apply in_rev.
  - destruct Hb as [->|[t ->]]; [now left|right]. rewrite rev_app_distr. cbn. eauto.
Qed.
