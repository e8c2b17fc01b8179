(** Templates that are spelled are read. *)
From Coq Require Import String List ZArith Lia Bool Arith.
From Verif Require Import M_Base L_Util M_Compress M_Fold M_Num M_Token M_Str M_Text M_Expr M_Split S_Split L_Split L_Split2 L_Split3.
Import ListNotations.
Open Scope Z_scope.

Scheme spelled_ind' := Induction for spelled Sort Prop
  with items_ind' := Induction for spelled_items Sort Prop
  with item_ind' := Induction for spelled_item Sort Prop.
Combined Scheme spelled_all from spelled_ind', items_ind', item_ind'.

Section Read.
Context (isalpha : Z -> bool) (lang : language).
Context (letters : forall c, 97 <= c <= 122 -> isalpha c = true).
Context (escape : isalpha 92 = false /\ isalpha 0 = false /\ isalpha 40 = false /\ isalpha 41 = false).
Notation parse_rec := (parse_rec isalpha lang).
Notation spells_sep := (spells_sep isalpha).
Notation spelled := (spelled isalpha).
Notation spelled_items := (spelled_items isalpha).
Notation spelled_item := (spelled_item isalpha).

Definition nonalpha (s : list Z) : Prop := match s with [] => True | c :: _ => isalpha c = false end.
Lemma take_word w s : Forall (fun c => isalpha c = true) w -> nonalpha s -> take_alpha isalpha (w ++ s) = (w, s).
Proof. induction 1 as [|c w A _ IH]; intros N; cbn [app take_alpha]; [destruct s as [|c s]; [reflexivity|]; cbn in N |- *; now rewrite N|]. now rewrite A, IH. Qed.
Lemma sep_char sep e : spells_sep sep e -> exists c r, e = c :: r /\ isalpha c = false /\ c <> 0 /\ c <> 40 /\ c <> 41 /\ forall s, separator lang c (r ++ s) = Ok (sep, s).
Proof.
  destruct escape as (A1 & A2 & A3 & A4). destruct 1 as [c A N|c H|c].
  - exists c, []. cbn [In] in N. repeat (split; [tauto|]). split; [intros ->; tauto|]. split; [intros ->; tauto|]. split; [intros ->; tauto|]. intros s. unfold separator.
    destruct (Z.eqb_spec c 92); [subst; tauto|reflexivity].
  - exists 92, [c]. repeat (split; [easy|]). intros s. now destruct H as [-> | ->].
  - exists 92, [119; c]. repeat (split; [easy|]). reflexivity.
Qed.
Lemma sep_nonalpha sep e s : spells_sep sep e -> nonalpha (e ++ s).
Proof. intros H. destruct (sep_char _ _ H) as (c & r & -> & A & _). exact A. Qed.

(** One round: a separator. *)
Lemma read_sep sep e fuel deep s acc sepo plural : spells_sep sep e -> sepo = None \/ sepo = Some sep -> (length (e ++ s) < fuel)%nat ->
  exists fuel', (length s < fuel')%nat /\ parse_rec fuel deep (e ++ s) acc sepo true plural = parse_rec fuel' deep s acc (Some sep) false plural.
Proof.
  intros H So L. destruct (sep_char _ _ H) as (c & r & -> & A & N0 & N1 & N2 & E). destruct fuel as [|fuel]; [cbn in L; lia|]. exists fuel. rewrite app_length in L. cbn [length] in L. split; [lia|].
  cbn [app M_Split.parse_rec]. destruct (Z.eqb_spec c 0); [easy|]. destruct (Z.eqb_spec c 41); [easy|]. destruct (Z.eqb_spec c 40); [easy|]. rewrite A, E. cbn [bind].
  destruct So as [-> | ->]; cbn [bind negb]; [reflexivity|]. rewrite zeqb_list_refl. reflexivity.
Qed.
(** A plural mark behind a list. *)
Definition next_plural (p : bool) (n : nat) (plural : option (nat * nat)) : res (option (nat * nat)) :=
  if p then match plural with None => Ok (Some (n, S n)) | Some (b, e) => if (e =? n)%nat then Ok (Some (b, S e)) else Err ECheck end else Ok plural.
Lemma word_kind k w p acc : kind_word k w -> exists c r, w = c :: r /\ Forall (fun c => isalpha c = true) w /\ c <> 0 /\ c <> 40 /\ c <> 41 /\
  (let word := w ++ plural_mark p in ends_with [115] word = p /\ (if p then removelast word else word) = w) /\ add_word w acc = Ok (acc ++ [TPlain k]) /\ zeqb_list w [] = false.
Proof.
  destruct 1; (eexists _, _; split; [reflexivity|]; split; [apply Forall_forall; intros z I; apply letters; vm_compute in I; lia|]; do 3 (split; [discriminate|]); split; [now destruct p|]; split; reflexivity).
Qed.
Lemma add_empty acc t : is_split t = true -> add_word [] (acc ++ [t]) = Ok (acc ++ [t]).
Proof. intros Sp. unfold add_word. cbn - [rev]. rewrite rev_app_distr. cbn. now rewrite Sp. Qed.
Lemma mark_alpha p : Forall (fun c => isalpha c = true) (plural_mark p).
Proof. apply Forall_forall. intros z I. apply letters. destruct p; vm_compute in I; lia. Qed.
Lemma eq_rec fuel deep ch s acc sepo exp plural : ch <> 0 -> ch <> 41 -> ch <> 40 -> isalpha ch = true ->
  parse_rec (S fuel) deep (ch :: s) acc sepo exp plural =
    (let '(w, s) := take_alpha isalpha s in
     let word := ch :: w in
     let is_plural := ends_with [115] word in
     let singular := if is_plural then removelast word else word in
     split <- add_word singular acc ;;
     plural <- (if is_plural then add_plural split plural else Ok plural) ;;
     if exp && negb (zeqb_list singular []) then Err ECheck else
     parse_rec fuel deep s split sepo true plural)%res.
Proof. intros N0 N1 N2 A. cbn [M_Split.parse_rec]. rewrite (proj2 (Z.eqb_neq ch 0) N0), (proj2 (Z.eqb_neq ch 41) N1), (proj2 (Z.eqb_neq ch 40) N2), A. reflexivity. Qed.

Definition read_template (t : ty) (s : list Z) : Prop :=
  forall fuel (deep : bool) (rest : list Z), (length s + (if deep then 1 + length rest else 0) < fuel)%nat ->
  parse_rec fuel deep (s ++ if deep then 41 :: rest else []) [] None false None = Ok (t, if deep then rest else []).
Definition read_item (t : ty) (p : bool) (w : list Z) : Prop :=
  forall fuel (deep : bool) (s : list Z) acc sepo plural plural', nonalpha s -> next_plural p (length acc) plural = Ok plural' -> (length (w ++ s) < fuel)%nat ->
  exists fuel', (length s < fuel')%nat /\ parse_rec fuel deep (w ++ s) acc sepo false plural = parse_rec fuel' deep s (acc ++ [t]) sepo true plural'.
(** The plural while the items are read. *)
Fixpoint plurals (n : nat) (items : list (ty * bool)) (plural : option (nat * nat)) : res (option (nat * nat)) :=
  match items with
  | [] => Ok plural
  | (_, p) :: items => plural <- next_plural p n plural ;; plurals (S n) items plural
  end.
Definition read_items (sep : list Z) (items : list (ty * bool)) (s : list Z) : Prop :=
  forall fuel (deep : bool) (r : list Z) acc sepo plural plural', nonalpha r -> plurals (length acc) items plural = Ok plural' -> sepo = None \/ sepo = Some sep -> (length (s ++ r) < fuel)%nat ->
  exists fuel' sepo', (length r < fuel')%nat /\ (sepo' = None \/ sepo' = Some sep) /\ (sepo = Some sep \/ (2 <= length items)%nat -> sepo' = Some sep) /\
    parse_rec fuel deep (s ++ r) acc sepo false plural = parse_rec fuel' deep r (acc ++ map fst items) sepo' true plural'.

Lemma plurals_app n a b plural : plurals n (a ++ b) plural = (plural <- plurals n a plural ;; plurals (n + length a) b plural)%res.
Proof.
  revert n plural. induction a as [|(t, p) a IH]; intros n plural; cbn [app plurals length bind]; [now rewrite Nat.add_0_r|].
  destruct (next_plural p n plural) as [pl|]; cbn [bind]; [|reflexivity]. rewrite IH. now rewrite Nat.add_succ_r.
Qed.
Lemma plurals_none n a plural : Forall (fun x : ty * bool => snd x = false) a -> plurals n a plural = Ok plural.
Proof. intros H. revert n. induction H as [|(t, p) a E _ IH]; intros n; cbn [plurals]; [reflexivity|]. cbn in E. subst p. cbn. apply IH. Qed.
Lemma plurals_more b a : forall n e, Forall (fun x : ty * bool => snd x = true) a -> e = n -> plurals n a (Some (b, e)) = Ok (Some (b, (n + length a)%nat)).
Proof.
  induction a as [|(t, p) a IH]; intros n e H ->; cbn [plurals length]; [now rewrite Nat.add_0_r|]. inversion H; subst. cbn in H2. subst p. cbn [next_plural]. rewrite Nat.eqb_refl. cbn [bind]. rewrite IH by easy. now rewrite Nat.add_succ_r.
Qed.
Lemma range_plurals items plural : plural_range items plural -> plurals 0 items None = Ok plural.
Proof.
  destruct plural as [(b, e)|]; [|apply plurals_none]. intros (x & y & z & -> & N & <- & <- & Hx & Hy & Hz). rewrite plurals_app, plurals_none by easy. cbn [bind]. rewrite plurals_app.
  destruct y as [|(t, p) y]; [easy|]. inversion Hy; subst. cbn in H1. subst p. cbn [plurals next_plural bind]. rewrite plurals_more by easy. cbn [bind]. rewrite plurals_none by easy. cbn [length]. do 2 f_equal. f_equal. lia.
Qed.

Lemma all_spelled : (forall t s, spelled t s -> read_template t s) /\ (forall sep items s, spelled_items sep items s -> read_items sep items s) /\ (forall t p w, spelled_item t p w -> read_item t p w).
Proof.
  apply (spelled_all isalpha (fun t s _ => read_template t s) (fun sep items s _ => read_items sep items s) (fun t p w _ => read_item t p w)).
  - (* a template *) intros sep items plural s e _ IH Pl He fuel deep rest L. rewrite <- app_assoc. rewrite app_length in L.
    set (close := if deep then 41 :: rest else []).
    assert (Lc : length close = if deep then S (length rest) else 0%nat) by (unfold close; now destruct deep).
    assert (Nc : nonalpha close) by (unfold close; destruct deep; [apply escape|exact I]).
    assert (Fin : forall fuel, (length close < fuel)%nat -> parse_rec fuel deep close (map fst items) (Some sep) false plural = Ok (TSplit sep (map fst items) plural, if deep then rest else []) /\
                     parse_rec fuel deep close (map fst items) (Some sep) true plural = Ok (TSplit sep (map fst items) plural, if deep then rest else [])).
    { intros [|f] Hf; [lia|]. unfold close. destruct deep; split; reflexivity. }
    assert (Lt : (length s + length e + length close < fuel)%nat) by (rewrite Lc; destruct deep; lia). clear L.
    assert (Ne : nonalpha (e ++ close)) by (destruct He as [(-> & _)|H]; [exact Nc|now apply (sep_nonalpha sep)]).
    destruct (IH fuel deep (e ++ close) [] None None plural Ne (range_plurals _ _ Pl) (or_introl eq_refl) ltac:(rewrite !app_length; lia)) as (f1 & so & L1 & So & Two & ->). cbn [app].
    destruct He as [(-> & T)|He].
    + rewrite (Two (or_intror T)). cbn [app] in *. now apply Fin.
    + destruct (read_sep sep e f1 deep close (map fst items) so plural He So L1) as (f2 & L2 & ->). now apply Fin.
  - (* one *) intros sep t p w _ IH fuel deep r acc sepo plural plural' N P So L. cbn [plurals] in P. destruct (next_plural p (length acc) plural) as [pl|] eqn:E; [|discriminate P]. apply Ok_inj in P. subst pl.
    destruct (IH fuel deep r acc sepo _ _ N E L) as (f1 & L1 & ->). exists f1, sepo. split; [exact L1|]. split; [exact So|]. split; [|reflexivity]. intros [H|H]; [exact H|cbn in H; lia].
  - (* more *) intros sep t p w e items s _ IH He _ IH2 fuel deep r acc sepo plural plural' N P So L. cbn [plurals] in P. destruct (next_plural p (length acc) plural) as [pl|] eqn:E; [|discriminate P]. cbn [bind] in P.
    rewrite <- !app_assoc in L |- *. destruct (IH fuel deep (e ++ s ++ r) acc sepo _ _ (sep_nonalpha _ _ _ He) E L) as (f1 & L1 & ->).
    destruct (read_sep sep e f1 deep (s ++ r) (acc ++ [t]) sepo pl He So L1) as (f2 & L2 & ->).
    destruct (IH2 f2 deep r (acc ++ [t]) (Some sep) pl plural' N) as (f3 & so & L3 & S1 & S2 & ->); [now rewrite app_length, Nat.add_1_r|now right|exact L2|].
    exists f3, so. split; [exact L3|]. split; [exact S1|]. split; [intros _; apply S2; now left|]. cbn [map fst]. now rewrite <- app_assoc.
  - (* a word *) intros k p w K fuel deep s acc sepo plural plural' N P L. destruct (word_kind k w p acc K) as (c & r & -> & A & N0 & N1 & N2 & (W1 & W2) & W3 & W4).
    destruct fuel as [|fuel]; [lia|]. exists fuel. rewrite !app_length in L. cbn [length] in L. split; [lia|]. inversion A as [|? ? Ac Ar]; subst. rewrite <- app_assoc. cbn [app]. rewrite eq_rec by easy. rewrite app_assoc.
    rewrite take_word; [|apply Forall_app; split; [exact Ar|apply mark_alpha]|exact N]. cbn zeta. change (c :: r ++ plural_mark p) with ((c :: r) ++ plural_mark p). rewrite W1, W2, W3. cbn [bind].
    unfold next_plural in P. destruct p.
    + unfold add_plural. rewrite app_length. cbn [length]. rewrite Nat.add_sub. rewrite P. reflexivity.
    + apply Ok_inj in P. subst plural'. reflexivity.
  - (* nested *) intros t p s _ IH fuel deep r acc sepo plural plural' N P L. destruct fuel as [|fuel]; [lia|]. cbn [app length] in L. rewrite !app_length in L. cbn [length] in L. cbn [app]. rewrite <- app_assoc. cbn [app].
    specialize (IH fuel true (plural_mark p ++ r)). rewrite app_length in IH. specialize (IH ltac:(lia)). cbn iota in IH.
    change (parse_rec (S fuel) deep (40 :: s ++ 41 :: plural_mark p ++ r) acc sepo false plural) with
      ('(t, s) <- parse_rec fuel true (s ++ 41 :: plural_mark p ++ r) [] None false None ;; parse_rec fuel deep s (acc ++ [t]) sepo true plural)%res. rewrite IH. cbn [bind].
    destruct p; cbn [plural_mark app length asc] in *.
    + assert (Sp : is_split t = true). { clear - IH. eapply rec_ok in IH; [apply IH|constructor|exact I]. }
      destruct fuel as [|fuel]; [cbn in L; lia|]. exists fuel. split; [cbn in L; lia|]. change (asc "s" ++ r) with (115 :: r). rewrite eq_rec; [|discriminate..|apply letters; lia]. change r with ([] ++ r) at 1. rewrite take_word by (easy || constructor).
      cbn zeta. cbn [ends_with rev app]. change (ends_with [115] [115]) with true. cbn iota. change (removelast [115]) with (@nil Z). rewrite (add_empty acc t Sp). cbn [bind]. unfold add_plural. rewrite app_length. cbn [length]. rewrite Nat.add_sub. unfold next_plural in P. rewrite P. reflexivity.
    + unfold next_plural in P. apply Ok_inj in P. subst plural'. exists fuel. split; [cbn in L; lia|reflexivity].
Qed.
Lemma spelled_read t s : spelled t s -> parse_split_args isalpha lang s = Ok t.
Proof.
  intros H. unfold parse_split_args. destruct all_spelled as (A & _). specialize (A _ _ H (S (length s)) false [] ltac:(cbn; lia)). cbn iota in A. rewrite app_nil_r in A. now rewrite A.
Qed.
End Read.
