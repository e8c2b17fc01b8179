(** Lemmas for carts as directories: a cart written and read back. *)
From Verif Require Import M_Base L_Util M_Url M_Files M_Fs S_Fs L_Fs.
Open Scope Z_scope.

(** ** Names *)
Lemma fs_cons c cs e : cs <> [] \/ e = None -> fsname (c :: cs) e = c ++ 47 :: fsname cs e.
Proof. intros [H| ->]; [now destruct cs|]. now destruct cs. Qed.
Lemma fs_nonempty cs e : cs <> [] -> Forall plain cs -> fsname cs e <> [].
Proof. intros N F. destruct cs as [|c cs]; [easy|]. inversion F as [|? ? (P & _) _]; subst. destruct cs; cbn; [destruct e|]; destruct c; try easy; discriminate. Qed.
Lemma fs_app cs rest e : rest <> [] \/ e = None -> fsname (cs ++ rest) e = fsname cs None ++ fsname rest e.
Proof.
  intros H. induction cs as [|c cs IH]; [reflexivity|]. cbn [app]. rewrite (fs_cons c cs None) by auto. rewrite fs_cons, IH, <- app_assoc; [reflexivity|].
  destruct H as [H|H]; [left; destruct cs; [exact H|discriminate]|auto].
Qed.
Lemma cut_eq (c c' x y : name) : ~ In 47 c -> ~ In 47 c' -> c ++ 47 :: x = c' ++ 47 :: y -> c = c' /\ x = y.
Proof.
  revert c'. induction c as [|a c IH]; intros [|b c'] N N' E; cbn in *.
  - injection E as ->. auto.
  - injection E as <- _. tauto.
  - injection E as -> _. tauto.
  - injection E as <- E. destruct (IH c') as (-> & ->); auto.
Qed.
Lemma below cs : Forall plain cs -> forall cs' e r, cs' <> [] -> Forall plain cs' -> fsname cs' e = fsname cs None ++ r ->
  exists rest, cs' = cs ++ rest /\ r = fsname rest e /\ (rest = [] -> e = None).
Proof.
  induction 1 as [|c cs Pc F IH]; intros cs' e r N F' E; [exists cs'; cbn in E; split; [reflexivity|]; split; [now symmetry|contradiction]|].
  rewrite (fs_cons c cs None) in E by auto. destruct cs' as [|c' cs']; [easy|]. inversion F' as [|? ? Pc' F'']; subst. rewrite <- app_assoc in E. cbn [app] in E.
  destruct cs' as [|d cs'].
  - destruct e as [x|].
    + exfalso. cbn in E. apply Pc'. rewrite E. apply in_app_iff. right. now left.
    + rewrite fs_cons in E by auto. apply cut_eq in E; [|apply Pc'|apply Pc]. destruct E as (-> & E). cbn in E. destruct cs as [|y cs]; [|exfalso].
      * exists []. cbn in E. subst r. auto.
      * symmetry in E. apply app_eq_nil in E. destruct E as (E & _). now apply fs_nonempty in E.
  - rewrite fs_cons in E by (left; discriminate). apply cut_eq in E; [|apply Pc'|apply Pc]. destruct E as (-> & E).
    destruct (IH (d :: cs') e r ltac:(discriminate) F'' E) as (rest & -> & R). exists rest. auto.
Qed.
Lemma fs_inj cs : forall cs' e e', Forall plain cs -> Forall plain cs' -> cs <> [] -> cs' <> [] -> fsname cs e = fsname cs' e' -> cs = cs' /\ (e = None <-> e' = None).
Proof.
  induction cs as [|c cs IH]; intros [|c' cs'] e e' F F' N N' E; try easy. inversion F as [|? ? Pc Fc]; subst. inversion F' as [|? ? Pc' Fc']; subst.
  destruct cs as [|d cs], cs' as [|d' cs'].
  - cbn in E. destruct e, e'.
    + subst. split; [reflexivity|split; discriminate].
    + exfalso. apply Pc. rewrite E. apply in_app_iff. right. now left.
    + exfalso. apply Pc'. rewrite <- E. apply in_app_iff. right. now left.
    + apply cut_eq in E; [|apply Pc|apply Pc']. destruct E as (-> & _). split; [reflexivity|tauto].
  - exfalso. rewrite (fs_cons c' (d' :: cs')) in E by (left; discriminate). cbn [fsname] in E. destruct e.
    + apply Pc. rewrite E. apply in_app_iff. right. now left.
    + apply cut_eq in E; [|apply Pc|apply Pc']. destruct E as (_ & E). symmetry in E. exact (fs_nonempty (d' :: cs') e' ltac:(discriminate) Fc' E).
  - exfalso. rewrite (fs_cons c (d :: cs)) in E by (left; discriminate). cbn [fsname] in E. destruct e'.
    + apply Pc'. rewrite <- E. apply in_app_iff. right. now left.
    + apply cut_eq in E; [|apply Pc|apply Pc']. destruct E as (_ & E). exact (fs_nonempty (d :: cs) e ltac:(discriminate) Fc E).
  - rewrite (fs_cons c (d :: cs)), (fs_cons c' (d' :: cs')) in E by (left; discriminate). apply cut_eq in E; [|apply Pc|apply Pc']. destruct E as (-> & E).
    destruct (IH (d' :: cs') e e') as (-> & H); auto; discriminate.
Qed.
Lemma slashes_app a b : slashes (a ++ b) = (slashes a + slashes b)%nat.
Proof. unfold slashes. now rewrite filter_app, app_length. Qed.
Lemma slashes_none c : ~ In 47 c -> slashes c = O.
Proof. induction c as [|x c IH]; intros N; [reflexivity|]. unfold slashes in *. cbn in *. destruct (Z.eqb_spec x 47); [tauto|]. apply IH. tauto. Qed.
Lemma slashes_fs rest e : Forall plain rest -> rest <> [] -> slashes (fsname rest e) = match e with None => length rest | Some _ => (length rest - 1)%nat end.
Proof.
  induction rest as [|c rest IH]; intros F N; [easy|]. inversion F as [|? ? (_ & _ & _ & P) Fr]; subst. destruct rest as [|d rest].
  - cbn [fsname length]. destruct e; [now apply slashes_none|]. rewrite slashes_app, slashes_none by exact P. reflexivity.
  - rewrite fs_cons by (left; discriminate). rewrite slashes_app, slashes_none by exact P. change (47 :: fsname (d :: rest) e) with ([47] ++ fsname (d :: rest) e).
    rewrite slashes_app, IH by (assumption || discriminate). cbn [slashes length]. destruct e; cbn; lia.
Qed.
Lemma starts_with_iff pre s : starts_with pre s = true <-> exists r, s = pre ++ r /\ skipn (length pre) s = r.
Proof.
  unfold starts_with. split.
  - intros E. apply zeqb_list_true in E. exists (skipn (length pre) s). split; [|reflexivity]. rewrite E at 1. symmetry. apply firstn_skipn.
  - intros (r & -> & _). rewrite firstn_app, firstn_all, Nat.sub_diag. cbn [firstn]. rewrite app_nil_r. apply zeqb_list_refl.
Qed.
Lemma slash_dir cs : Forall plain cs -> with_slash (fsname cs None) = fsname cs None.
Proof.
  intros F. destruct cs as [|c cs] using rev_ind; [reflexivity|]. rewrite fs_app by auto. cbn [fsname]. rewrite app_assoc. unfold with_slash. rewrite ends_app. destruct (_ ++ [47]) eqn:E; reflexivity.
Qed.
Lemma not_slash c : ~ In 47 c -> starts_slash c = false.
Proof. intros N. destruct c as [|x c]; [reflexivity|]. cbn. apply Z.eqb_neq. intros ->. apply N. now left. Qed.
Lemma abs_part cwd p c e : p <> [] -> plain c -> abs cwd (path_join p (fsname [c] e)) = abs cwd p ++ [c] /\ path_join p (fsname [c] e) <> [].
Proof.
  intros N (A & B & C & D). assert (S : starts_slash (fsname [c] e) = false) by (cbn [fsname]; destruct e; [now apply not_slash|]; rewrite starts_app by exact A; now apply not_slash).
  split; [|apply join_nonempty; cbn; destruct e; destruct c; easy]. rewrite abs_join by assumption. cbn [fsname]. destruct e as [x|].
  - rewrite split_none by exact D. cbn [rev app]. now apply norm_plain.
  - rewrite split_sep, split_none by exact D. cbn [rev app split_all]. change [c; []] with ([c] ++ [[]]). rewrite norm_app, (norm_plain _ c) by assumption. reflexivity.
Qed.

(** ** The file system *)
Lemma dirs_above f b : sound f -> forall a, is_dir f (a ++ b) = true -> is_dir f a = true.
Proof.
  intros S. induction b as [|n b IH] using rev_ind; intros a D; [now rewrite app_nil_r in D|]. apply IH. rewrite app_assoc in D. destruct (path_dec (a ++ b) []) as [->|N]; [reflexivity|].
  apply is_dir_look; [exact N|]. destruct (S (a ++ b) n) as [H|H]; [|contradiction|exact H]. apply is_dir_look in D; [congruence|]. now destruct (a ++ b).
Qed.
Lemma makedirs_pass f rest : sound f -> forall here more, is_dir f (here ++ rest) = true -> makedirs f here (rest ++ more) = makedirs f (here ++ rest) more.
Proof.
  intros S. induction rest as [|n rest IH]; intros here more D; [now rewrite app_nil_r|]. cbn [app makedirs].
  assert (X : here ++ n :: rest = (here ++ [n]) ++ rest) by now rewrite <- app_assoc. rewrite X in *. pose proof (dirs_above _ _ S _ D) as Y. apply is_dir_look in Y; [|now destruct here]. rewrite Y. now apply IH.
Qed.
Lemma look_nodup (t : fs) : NoDup (map fst t) -> forall cs e, look t cs = Some e <-> In (cs, e) t.
Proof.
  induction t as [|[k v] t IH]; intros N cs e; cbn; [easy|]. cbn in N. inversion N as [|? ? N1 N2]; subst. destruct (same_path cs k) eqn:E.
  - apply same_path_iff in E. subst k. split; [intros [= ->]; auto|]. intros [[= ->]|I]; [reflexivity|]. exfalso. apply N1. apply in_map_iff. now exists (cs, e).
  - rewrite (IH N2). apply same_path_false in E. split; [auto|]. intros [[= -> ->]|I]; [congruence|exact I].
Qed.

Section Tree.
Context (cwd : name) (tree : list (list name * entry)) (T : tidy tree).
Notation cart := (cart_of tree).
Lemma tl_in cs e : look tree cs = Some e <-> In (cs, e) tree.
Proof. apply look_nodup, (places_once _ T). Qed.
Lemma tl_plain cs e : look tree cs = Some e -> cs <> [] /\ Forall plain cs.
Proof. intros H. apply tl_in in H. exact (places_plain _ T _ _ H). Qed.
Lemma tl_up cs r : forall c e, look tree (cs ++ c :: r) = Some e -> r <> [] -> look tree (cs ++ [c]) = Some None.
Proof.
  induction r as [|d r IH] using rev_ind; intros c e H N; [easy|]. apply tl_in in H.
  assert (X : In (cs ++ c :: r, None) tree). { apply (places_in _ T _ d e); [rewrite <- app_assoc; exact H|now destruct cs]. }
  destruct r as [|x r]; [now apply tl_in|]. apply (IH c None); [now apply tl_in|discriminate].
Qed.
Lemma tl_not_root : look tree [] = None.
Proof. destruct (look tree []) as [e|] eqn:E; [|reflexivity]. apply tl_plain in E. now destruct E. Qed.
Lemma get_in l : (forall x, In x l -> In x tree) -> forall cs e, In (cs, e) l -> NoDup (map fst l) -> get (cart_of l) (fsname cs e) = Some e.
Proof.
  intros Sub cs e I N. induction l as [|[k v] l IH]; [destruct I|]. cbn [cart_of map get fst snd]. inversion N as [|? ? N1 N2]; subst.
  destruct (zeqb_list (fsname cs e) (fsname k v)) eqn:E.
  - apply zeqb_list_true in E. pose proof (places_plain _ T _ _ (Sub _ (or_introl eq_refl))) as (A & B). pose proof (places_plain _ T _ _ (Sub _ I)) as (A' & B').
    apply fs_inj in E; auto. destruct E as (-> & E). destruct I as [[= ->]|I]; [reflexivity|]. exfalso. apply N1. apply in_map_iff. now exists (k, e).
  - destruct I as [[= -> ->]|I]; [now rewrite zeqb_list_refl in E|]. apply IH; auto. intros x J. apply Sub. now right.
Qed.
Lemma get_cart cs e : look tree cs = Some e -> get cart (fsname cs e) = Some e.
Proof. intros H. apply get_in; auto; [now apply tl_in|apply (places_once _ T)]. Qed.

(** one entry of the cart, seen from the directory [cs] *)
Lemma child_other go p cs cs' e f : Forall plain cs -> In (cs', e) tree -> (forall c, cs' <> cs ++ [c]) -> write_child cwd go p (fsname cs None) f (fsname cs' e, e) = (f, Ok tt).
Proof.
  intros F I N. unfold write_child. destruct (starts_with _ _) eqn:S; [|reflexivity]. apply starts_with_iff in S. destruct S as (r & E & ->).
  destruct (places_plain _ T _ _ I) as (A & B). destruct (below _ F _ _ _ A B E) as (rest & -> & -> & Z).
  assert (X : Nat.eqb (slashes (fsname rest e)) (match e with None => 1 | Some _ => 0 end) = false); [|now rewrite X].
  apply Nat.eqb_neq. destruct rest as [|c rest]; [rewrite (Z eq_refl); cbn; discriminate|]. apply Forall_app in B. rewrite slashes_fs by (apply B || discriminate).
  destruct rest as [|d rest]; [now specialize (N c)|]. cbn [length]. destruct e; lia.
Qed.
Lemma child_here go p cs c e f : p <> [] -> Forall plain cs -> plain c -> write_child cwd go p (fsname cs None) f (fsname (cs ++ [c]) e, e) =
  go f (path_join p (fsname [c] e)) (match e with None => true | Some _ => false end) (fsname (cs ++ [c]) e).
Proof.
  intros N F P. unfold write_child. rewrite fs_app by (left; discriminate).
  assert (S : starts_with (fsname cs None) (fsname cs None ++ fsname [c] e) = true) by (apply starts_with_iff; eexists; split; [reflexivity|]; now rewrite skipn_app, skipn_all, Nat.sub_diag).
  rewrite S. rewrite skipn_app, skipn_all, Nat.sub_diag. cbn [app skipn]. rewrite slashes_fs by (discriminate || now constructor).
  replace (Nat.eqb _ _) with true by (now destruct e). destruct (abs_part cwd p c e N P) as (E & E'). replace (path_is_inside cwd _ p) with true; [reflexivity|].
  symmetry. apply is_inside_iff. split; [exact E'|]. rewrite E. now exists [c].
Qed.

(** ** Writing *)
Definition empty_in (f : fs) (d : list name) : Prop := forall c r, look f (d ++ c :: r) = None.
Lemma cons_ne (d : list name) c r : d ++ c :: r <> d.
Proof. intros E. apply (f_equal (@length _)) in E. rewrite app_length in E. cbn in E. lia. Qed.
Lemma write_kids fuel : forall cs p f, (forall cs' e, In (cs', e) tree -> (length cs' <= fuel + length cs)%nat) -> p <> [] -> Forall plain cs -> sound f -> is_dir f (abs cwd p) = true -> empty_in f (abs cwd p) ->
  exists f', write_children cwd (write_fs cwd fuel cart false) p (fsname cs None) f cart = (f', Ok tt) /\
    (forall c r, look f' (abs cwd p ++ c :: r) = look tree (cs ++ c :: r)) /\
    (forall q, (forall c r, q <> abs cwd p ++ c :: r) -> look f' q = look f q).
Proof.
  induction fuel as [|fuel IH]; intros cs p f Len Np F S D Em.
  - (* nothing is so deep *)
    assert (No : forall c r, look tree (cs ++ c :: r) = None). { intros c r. destruct (look tree (cs ++ c :: r)) as [e|] eqn:E; [|reflexivity]. apply tl_in, Len in E. rewrite app_length in E. cbn in E. lia. }
    exists f. split; [|split; [intros c r; now rewrite Em, No|reflexivity]].
    assert (X : forall l, (forall x, In x l -> In x tree) -> write_children cwd (write_fs cwd 0 cart false) p (fsname cs None) f (cart_of l) = (f, Ok tt)); [|now apply X].
    induction l as [|[k e] l IHl]; intros Sub; [reflexivity|]. cbn [cart_of map write_children fst snd]. rewrite child_other; [apply IHl; intros x I; apply Sub; now right|exact F|apply Sub; now left|].
    intros c ->. specialize (No c []). specialize (Sub _ (or_introl eq_refl)). apply tl_in in Sub. congruence.
  - set (D0 := abs cwd p) in *.
    assert (X : forall l, (forall x, In x l -> In x tree) -> NoDup (map fst l) -> forall f, sound f -> is_dir f D0 = true -> (forall c r, In (cs ++ [c]) (map fst l) -> look f (D0 ++ c :: r) = None) ->
      exists f', write_children cwd (write_fs cwd (Datatypes.S fuel) cart false) p (fsname cs None) f (cart_of l) = (f', Ok tt) /\
        (forall c r, In (cs ++ [c]) (map fst l) -> look f' (D0 ++ c :: r) = look tree (cs ++ c :: r)) /\
        (forall q, (forall c r, In (cs ++ [c]) (map fst l) -> q <> D0 ++ c :: r) -> look f' q = look f q)).
    { clear f S D Em. induction l as [|[k e] l IHl]; intros Sub N f S D Em; [exists f; split; [reflexivity|]; split; [intros c r []|reflexivity]|].
      cbn [map fst] in N. inversion N as [|? ? N1 N2]; subst. cbn [cart_of map write_children fst snd].
      assert (Sub' : forall x, In x l -> In x tree) by (intros x I; apply Sub; now right).
      assert (Ik : In (k, e) tree) by (apply Sub; now left). destruct (places_plain _ T _ _ Ik) as (Nk & Fk).
      assert (Cases : (exists c, k = cs ++ [c]) \/ forall c, k <> cs ++ [c]).
      { destruct (exists_last Nk) as (k0 & c & ->). destruct (path_dec k0 cs) as [->|Q]; [left; now exists c|right]. intros c' E. apply app_inj_tail in E. now destruct E. }
      destruct Cases as [(c & ->)|Q].
      - apply Forall_app in Fk. destruct Fk as (_ & Fc). inversion Fc as [|? ? Pc _]; subst. rewrite child_here by assumption.
        destruct (abs_part cwd p c e Np Pc) as (Ea & Ej). fold D0 in Ea. set (cp := path_join p (fsname [c] e)) in *.
        assert (One : exists f1, write_fs cwd (Datatypes.S fuel) cart false f cp (match e with None => true | Some _ => false end) (fsname (cs ++ [c]) e) = (f1, Ok tt) /\
          (forall r, look f1 (D0 ++ c :: r) = look tree (cs ++ c :: r)) /\ (forall q, (forall r, q <> D0 ++ c :: r) -> look f1 q = look f q)).
        { assert (None0 : look f (D0 ++ [c]) = None) by (apply Em; now left). destruct e as [d|].
          - cbn [write_fs]. unfold path_is_dir. destruct cp as [|z cp'] eqn:Ecp; [easy|]. rewrite Ea.
            assert (ND : is_dir f (D0 ++ [c]) = false). { apply Bool.not_true_iff_false. intros H. apply is_dir_look in H; [congruence|now destruct D0]. }
            rewrite ND. rewrite get_cart by now apply tl_in. unfold write_at. rewrite Ea. unfold file_write. rewrite ND, removelast_last, D. cbn [negb andb].
            eexists. split; [reflexivity|]. split.
            + intros r. rewrite look_put. destruct r as [|y r].
              * rewrite same_path_refl. symmetry. now apply tl_in.
              * assert (H : look f (D0 ++ c :: y :: r) = None) by (apply Em; now left). assert (H' : look tree (cs ++ c :: y :: r) = None).
                { destruct (look tree (cs ++ c :: y :: r)) as [e'|] eqn:E'; [|reflexivity]. apply tl_up in E'; [|discriminate]. apply tl_in in Ik. congruence. }
                rewrite H, H'. destruct (same_path _ _) eqn:E'; [|reflexivity]. apply same_path_iff, app_inv_head in E'. discriminate E'.
            + intros q Hq. rewrite look_put. destruct (same_path q (D0 ++ [c])) eqn:E'; [|reflexivity]. apply same_path_iff in E'. now specialize (Hq []).
          - cbn [write_fs]. unfold dir_create. cbn [andb]. destruct cp as [|z cp'] eqn:Ecp; [easy|]. rewrite <- Ecp in *. rewrite Ea.
            rewrite (makedirs_pass f D0 S [] [c] D). cbn [app makedirs]. rewrite None0. rewrite slash_dir by (apply Forall_app; auto).
            assert (S1 : sound (put f (D0 ++ [c]) None)) by (apply put_sound; auto; congruence).
            destruct (IH (cs ++ [c]) cp (put f (D0 ++ [c]) None)) as (f1 & W & A & B).
            + intros k' e' I'. apply Len in I'. rewrite app_length. cbn. lia.
            + exact Ej.
            + apply Forall_app; auto.
            + exact S1.
            + rewrite Ea. apply is_dir_look; [now destruct D0|]. now rewrite look_put, same_path_refl.
            + intros c' r'. rewrite Ea, look_put. destruct (same_path ((D0 ++ [c]) ++ c' :: r') (D0 ++ [c])) eqn:E'; [apply same_path_iff in E'; now apply cons_ne in E'|]. rewrite <- app_assoc. apply Em. now left.
            + rewrite Ea in A, B. exists f1. split; [exact W|]. split.
              * intros [|y r]; [|specialize (A y r); rewrite <- !app_assoc in A; exact A]. rewrite B by (intros c' r' E'; symmetry in E'; now apply cons_ne in E'). rewrite look_put, same_path_refl. symmetry. now apply tl_in.
              * intros q Hq. rewrite B; [|intros c' r' ->; specialize (Hq (c' :: r')); rewrite <- app_assoc in Hq; now apply Hq]. rewrite look_put. destruct (same_path q (D0 ++ [c])) eqn:E'; [|reflexivity]. apply same_path_iff in E'. now specialize (Hq []). }
        destruct One as (f1 & W & A & B). rewrite W.
        assert (S1 : sound f1) by (exact (proj1 (write_fs_step _ _ _ _ _ _ _ _ _ _ S W))).
        destruct (IHl Sub' N2 f1 S1) as (f2 & W2 & A2 & B2).
        + destruct (path_dec D0 []) as [->|Q]; [reflexivity|]. apply is_dir_look; [exact Q|]. rewrite B by (intros r E'; symmetry in E'; now apply cons_ne in E'). now apply is_dir_look.
        + intros c' r I'. rewrite B; [apply Em; now right|]. intros r' E'. apply app_inv_head in E'. injection E' as -> _. contradiction.
        + exists f2. split; [exact W2|]. split.
          * intros c' r [E'|I']; [|now apply A2]. apply app_inj_tail in E'. destruct E' as (_ & <-). rewrite B2; [apply A|]. intros c' r' I' E'. apply app_inv_head in E'. injection E' as -> _. contradiction.
          * intros q Hq. rewrite B2 by (intros c' r' I'; apply Hq; now right). apply B. intros r. apply Hq. now left.
      - rewrite child_other by assumption. destruct (IHl Sub' N2 f S D) as (f2 & W2 & A2 & B2).
        + intros c r I'. apply Em. now right.
        + exists f2. split; [exact W2|]. split.
          * intros c' r [E'|I']; [now apply Q in E'|now apply A2].
          * intros q Hq. apply B2. intros c' r' I'. apply Hq. now right. }
    destruct (X tree (fun _ I => I) (places_once _ T) f S D (fun c r _ => Em c r)) as (f' & W & A & B). exists f'. split; [exact W|]. split.
    + intros c r. destruct (look tree (cs ++ [c])) as [e|] eqn:E.
      * apply A. apply tl_in in E. apply in_map_iff. now exists (cs ++ [c], e).
      * rewrite B, Em.
        -- destruct (look tree (cs ++ c :: r)) as [e'|] eqn:E'; [|reflexivity]. destruct r as [|y r]; [congruence|]. apply tl_up in E'; [congruence|discriminate].
        -- intros c' r' I' E'. apply app_inv_head in E'. injection E' as <- _. apply in_map_iff in I'. destruct I' as ((k & e) & K & I'). cbn in K. subst k. apply tl_in in I'. congruence.
    + intros q Hq. apply B. intros c r _. apply Hq.
Qed.

(** ** The whole cart *)
Lemma makedirs_ok rest : forall here f, sound f -> is_dir f here = true -> (forall q, q <> [] -> inside q (here ++ rest) -> forall d, look f q <> Some (Some d)) ->
  exists f', makedirs f here rest = (f', true) /\ is_dir f' (here ++ rest) = true /\ forall q, ~ inside q (here ++ rest) -> look f' q = look f q.
Proof.
  induction rest as [|n rest IH]; intros here f S D Free; cbn [makedirs]; [rewrite app_nil_r; exists f; auto|].
  assert (R : here ++ n :: rest = (here ++ [n]) ++ rest) by now rewrite <- app_assoc. rewrite R in *.
  destruct (look f (here ++ [n])) as [[d|]|] eqn:L.
  - exfalso. apply (Free (here ++ [n]) ltac:(now destruct here)) with (d := d); [now exists rest|exact L].
  - apply IH; auto. apply is_dir_look; [now destruct here|exact L].
  - destruct (IH (here ++ [n]) (put f (here ++ [n]) None)) as (f' & M & A & B).
    + apply put_sound; auto; congruence.
    + apply is_dir_look; [now destruct here|]. now rewrite look_put, same_path_refl.
    + intros q Nq I d. rewrite look_put. destruct (same_path q (here ++ [n])); [discriminate|now apply Free].
    + exists f'. split; [exact M|]. split; [exact A|]. intros q Nq. rewrite B by exact Nq. rewrite look_put. destruct (same_path q (here ++ [n])) eqn:E; [|reflexivity]. apply same_path_iff in E. subst q. destruct Nq. now exists rest.
Qed.
Lemma fs_length cs e : Forall plain cs -> (length cs <= length (fsname cs e))%nat.
Proof.
  induction 1 as [|c cs (P & _) F IH]; [cbn; lia|]. assert (L : (1 <= length c)%nat) by (destruct c; [easy|cbn; lia]). destruct cs as [|d cs]; [cbn; destruct e; rewrite ?app_length; cbn; lia|].
  rewrite fs_cons by (left; discriminate). rewrite app_length. cbn [length] in *. lia.
Qed.
Lemma fold_max {A} (g : A -> nat) l x : In x l -> (g x <= fold_right (fun x n => Nat.max (g x) n) 0 l)%nat.
Proof. induction l as [|y l IH]; intros []; cbn; [subst; lia|]. specialize (IH H). lia. Qed.
Lemma look_in f p e : look f p = Some e -> In (p, e) f.
Proof. induction f as [|[k v] f IH]; cbn; [discriminate|]. destruct (same_path p k) eqn:E; [|auto]. apply same_path_iff in E. subst. intros [= ->]. auto. Qed.
Lemma get_some n e : get cart n = Some e -> exists cs, look tree cs = Some e /\ n = fsname cs e.
Proof.
  assert (X : forall l, get (cart_of l) n = Some e -> exists cs, In (cs, e) l /\ n = fsname cs e).
  { induction l as [|[k v] l IH]; cbn [cart_of map get fst snd]; [discriminate|]. destruct (zeqb_list n (fsname k v)) eqn:E.
    - intros [= ->]. apply zeqb_list_true in E. exists k. split; [now left|exact E].
    - intros H. destruct (IH H) as (cs & I & Q). exists cs. split; [now right|exact Q]. }
  intros H. destruct (X tree H) as (cs & I & Q). exists cs. split; [now apply tl_in|exact Q].
Qed.
Lemma write_all f p del : sound f -> p <> [] -> (forall q, q <> [] -> inside q (abs cwd p) -> forall d, look f q <> Some (Some d)) ->
  (del = true \/ forall cs, cs <> [] -> look f (abs cwd p ++ cs) = None) ->
  exists f', write_cart64_to_fs cwd cart f p (Some true) [] del = (f', Ok tt) /\ is_dir f' (abs cwd p) = true /\ forall cs, cs <> [] -> look f' (abs cwd p ++ cs) = look tree cs.
Proof.
  intros S Np Free Del. unfold write_cart64_to_fs. set (fuel := fold_right _ _ _). cbn [write_fs].
  set (D0 := abs cwd p) in *.
  assert (C : exists f1, dir_create cwd f p del = (f1, true) /\ sound f1 /\ is_dir f1 D0 = true /\ empty_in f1 D0).
  { unfold dir_create. destruct p as [|z p']; [easy|]. fold D0.
    assert (C1 : exists f0, (if del && exists_ f D0 then rmtree f D0 else (f, true)) = (f0, true) /\ sound f0 /\ empty_in f0 D0 /\ (forall q, q <> [] -> inside q D0 -> forall d, look f0 q <> Some (Some d))).
    { assert (Em : forall f0, (forall q, look f0 q = if under D0 q then None else look f q) -> empty_in f0 D0 /\ (forall q, q <> [] -> inside q D0 -> forall d, look f0 q <> Some (Some d))).
      { intros f0 H. split; [intros c r; rewrite H; replace (under D0 _) with true; [reflexivity|]; symmetry; apply under_iff; now exists (c :: r)|]. intros q Nq I d. rewrite H. destruct (under D0 q); [discriminate|now apply Free]. }
      destruct (del && exists_ f D0) eqn:B.
      - apply andb_true_iff in B. destruct B as (-> & B). assert (Dd : is_dir f D0 = true). { destruct D0 as [|w q] eqn:E; [reflexivity|]. apply is_dir_look; [discriminate|]. cbn [exists_] in B. destruct (look f (w :: q)) as [[d|]|] eqn:L; [|reflexivity|discriminate B]. exfalso. apply (Free (w :: q) ltac:(discriminate)) with (d := d); [exists []; now rewrite app_nil_r|exact L]. }
        destruct (rmtree f D0) as [f0 ok] eqn:R. pose proof (rmtree_step _ _ _ _ S R) as (S0 & _). unfold rmtree in R. rewrite Dd in R. injection R as <- <-. eexists. split; [reflexivity|]. split; [exact S0|]. apply Em. intros q. rewrite (look_filter (fun x => negb (under D0 x))). now destruct (under D0 q).
      - exists f. split; [reflexivity|]. split; [exact S|]. split; [|exact Free]. intros c r. destruct Del as [-> |H]; [|apply H; discriminate]. cbn in B.
        destruct (look f (D0 ++ c :: r)) as [e|] eqn:L; [|reflexivity]. exfalso. assert (Q : is_dir f D0 = true).
        { apply (dirs_above f (removelast (c :: r)) S). destruct (exists_last (l := c :: r) ltac:(discriminate)) as (a & b & E). rewrite E in *. rewrite removelast_last. rewrite app_assoc in L. destruct (path_dec (D0 ++ a) []) as [->|Na]; [reflexivity|]. apply is_dir_look; [exact Na|]. destruct (S (D0 ++ a) b) as [X|X]; [congruence|contradiction|exact X]. }
        destruct D0 as [|w q]; [discriminate B|]. apply is_dir_look in Q; [|discriminate]. cbn [exists_] in B. now rewrite Q in B. }
    destruct C1 as (f0 & -> & S0 & E0 & Free0). destruct (makedirs_ok D0 [] f0 S0 eq_refl Free0) as (f1 & M & A & B). rewrite M. exists f1. split; [reflexivity|]. split; [|split; [exact A|]].
    - exact (proj1 (makedirs_step _ [] _ _ _ S0 eq_refl M)).
    - intros c r. rewrite B; [apply E0|]. intros (t & E). apply (f_equal (@length _)) in E. cbn [app] in E. rewrite !app_length in E. cbn in E. lia. }
  destruct C as (f1 & -> & S1 & D1 & E1). cbn [with_slash]. destruct (write_kids (Datatypes.S fuel) [] p f1) as (f' & W & A & B); auto.
  - intros k e I. cbn [length]. destruct (places_plain _ T _ _ I) as (_ & Fk). pose proof (fs_length k e Fk). pose proof (fold_max (fun x => length (fst x)) cart (fsname k e, e)) as M. fold fuel in M. cbn [fst] in M.
    assert (In (fsname k e, e) cart) by (apply in_map_iff; now exists (k, e)). specialize (M H0). unfold fuel in *. lia.
  - exists f'. split; [exact W|]. split.
    + fold D0 in B. destruct (path_dec D0 []) as [->|N]; [reflexivity|]. apply is_dir_look; [exact N|]. rewrite B; [now apply is_dir_look|]. intros c r E. symmetry in E. now apply cons_ne in E.
    + intros [|c r] N; [easy|]. apply A.
Qed.

(** ** Reading *)
Lemma get_set (d : list (path * entry)) k v n : get (set d k v) n = if zeqb_list n k then Some v else get d n.
Proof.
  induction d as [|[k' v'] d IH]; cbn [set get]; [reflexivity|]. destruct (zeqb_list k k') eqn:E; cbn [get].
  - apply zeqb_list_true in E. subst. now destruct (zeqb_list n k').
  - destruct (zeqb_list n k') eqn:E'; [|exact IH]. apply zeqb_list_true in E'. subst. destruct (zeqb_list k' k) eqn:X; [|reflexivity]. apply zeqb_list_true in X. subst. now rewrite zeqb_list_refl in E.
Qed.
Lemma in_listdir f d c : In c (listdir f d) <-> look f (d ++ [c]) <> None.
Proof.
  unfold listdir. induction f as [|[k e] f IH]; cbn [flat_map look fst]; [split; [intros []|congruence]|]. rewrite in_app_iff, IH.
  assert (X : In c (child_of d k) <-> k = d ++ [c]).
  { unfold child_of. destruct k as [|x k0]; [split; [intros []|destruct d; discriminate]|]. destruct (exists_last (l := x :: k0) ltac:(discriminate)) as (q & y & ->). rewrite removelast_last, last_last. destruct (q ++ [y]) eqn:Z; [now destruct q|]. rewrite <- Z.
    destruct (same_path q d) eqn:E.
    - apply same_path_iff in E. subst q. split; [intros [->|[]]; reflexivity|]. intros E. apply app_inj_tail in E. destruct E as (_ & ->). now left.
    - apply same_path_false in E. split; [intros []|]. intros E'. apply app_inj_tail in E'. now destruct E'. }
  rewrite X. destruct (same_path (d ++ [c]) k) eqn:E.
  - apply same_path_iff in E. subst k. split; [discriminate|auto].
  - apply same_path_false in E. split; [|auto]. intros [H|H]; [congruence|exact H].
Qed.
Context (order : list name -> list name) (matches : name -> bool) (Order : forall l x, In x (order l) <-> In x l).
Definition sel (cs : list name) (e : entry) : Prop := look tree cs = Some e /\ (e = None \/ matches (fsname cs e) = true).
Lemma sel_plain cs e : sel cs e -> cs <> [] /\ Forall plain cs.
Proof. intros (H & _). exact (tl_plain _ _ H). Qed.
Lemma sel_inj a b e e' : sel a e -> sel b e' -> fsname a e = fsname b e' -> a = b /\ e = e'.
Proof. intros A B E. apply fs_inj in E; try apply (sel_plain _ _ A) || apply (sel_plain _ _ B). destruct E as (-> & _). split; [reflexivity|]. destruct A as (A & _), B as (B & _). congruence. Qed.
Lemma part_name cs c : Forall plain cs -> plain c -> fsname cs None ++ c <> [] /\ ends_slash (fsname cs None ++ c) = false /\ with_slash (fsname cs None ++ c) = fsname (cs ++ [c]) None /\
  (zeqb_list (fsname cs None ++ c) dot || zeqb_list (fsname cs None ++ c) [47]) = false.
Proof.
  intros F (A & B & C & D). assert (E : ends_slash (fsname cs None ++ c) = false).
  { rewrite ends_app_r by exact A. destruct (exists_last A) as (x & y & ->). rewrite ends_app. apply Z.eqb_neq. intros ->. apply D. apply in_app_iff. right. now left. }
  assert (N : fsname cs None ++ c <> []) by (destruct (fsname cs None), c; easy). split; [exact N|]. split; [exact E|]. split.
  - unfold with_slash. rewrite E. rewrite fs_app by (left; discriminate). cbn [fsname]. rewrite app_assoc. now destruct (fsname cs None ++ c).
  - apply orb_false_iff. split; apply zeqb_false; intros X.
    + destruct cs as [|c0 cs]; [cbn in X; contradiction|]. inversion F as [|? ? (P & _) _]; subst. rewrite fs_cons in X by auto. destruct c0 as [|y c0]; [easy|]. destruct c0; discriminate X.
    + rewrite X in E. discriminate E.
Qed.
Lemma read_tree f fuel : forall cs nm p crt dir, (0 < fuel)%nat -> (forall k e, In (k, e) tree -> (length k < fuel + length cs)%nat) -> p <> [] -> Forall plain cs ->
  ((cs = [] /\ nm = []) \/ exists cs0 c, cs = cs0 ++ [c] /\ nm = fsname cs0 None ++ c) -> (cs <> [] -> look tree cs = Some None) ->
  is_dir f (abs cwd p) = true -> (forall c r, look f (abs cwd p ++ c :: r) = look tree (cs ++ c :: r)) -> (dir = None \/ dir = Some true) ->
  exists crt', read_fs cwd order matches fuel f dir p nm crt = Ok crt' /\ (forall rest e, sel (cs ++ rest) e -> get crt' (fsname (cs ++ rest) e) = Some e) /\
    (forall n, (forall rest e, sel (cs ++ rest) e -> n <> fsname (cs ++ rest) e) -> get crt' n = get crt n).
Proof.
  induction fuel as [|fuel IH]; intros cs nm p crt dir Pos Len Np F Nm Dc D Same Dir; [lia|]. cbn [read_fs].
  assert (PD : path_is_dir cwd f p = true) by (unfold path_is_dir; now destruct p).
  assert (N0 : (zeqb_list nm dot || zeqb_list nm [47]) = false /\ with_slash nm = fsname cs None).
  { destruct Nm as [(-> & ->)|(cs0 & c & -> & ->)]; [auto|]. apply Forall_app in F. destruct F as (F0 & Fc). inversion Fc as [|? ? Pc _]; subst. destruct (part_name cs0 c F0 Pc) as (_ & _ & X & Y). auto. }
  destruct N0 as (-> & ->). replace (match dir with Some d => d | None => path_is_dir cwd f p end) with true by (destruct Dir as [-> | ->]; auto). rewrite PD.
  set (crt0 := match fsname cs None with [] => crt | _ => set crt (fsname cs None) None end).
  assert (G0 : (cs <> [] -> get crt0 (fsname cs None) = Some None) /\ forall n, (cs = [] \/ n <> fsname cs None) -> get crt0 n = get crt n).
  { destruct cs as [|c0 cs']; [split; [easy|reflexivity]|]. pose proof (fs_nonempty (c0 :: cs') None ltac:(discriminate) F) as Q. unfold crt0. destruct (fsname (c0 :: cs') None) as [|z m] eqn:E; [easy|]. split.
    - intros _. now rewrite get_set, zeqb_list_refl.
    - intros n [X|X]; [discriminate X|]. rewrite get_set. apply zeqb_false in X. now rewrite X. }
  set (D0 := abs cwd p) in *.
  assert (X : forall l, (forall c, In c l -> look f (D0 ++ [c]) <> None) -> forall crt, exists crt', read_child (fun p fspath cart => read_fs cwd order matches fuel f None p fspath cart) p (fsname cs None) l crt = Ok crt' /\
    (forall c rest e, In c l -> sel (cs ++ c :: rest) e -> get crt' (fsname (cs ++ c :: rest) e) = Some e) /\
    (forall n, (forall c rest e, In c l -> sel (cs ++ c :: rest) e -> n <> fsname (cs ++ c :: rest) e) -> get crt' n = get crt n)).
  { clear crt crt0 G0. induction l as [|c l IHl]; intros Ex crt; [exists crt; split; [reflexivity|]; split; [intros ? ? ? []|reflexivity]|]. cbn [read_child].
    destruct (look f (D0 ++ [c])) as [e|] eqn:L; [|now destruct (Ex c (or_introl eq_refl))]. assert (Lt : look tree (cs ++ [c]) = Some e) by (rewrite <- Same; exact L).
    destruct (tl_plain _ _ Lt) as (_ & Fk). apply Forall_app in Fk. destruct Fk as (_ & Fc). inversion Fc as [|? ? Pc _]; subst.
    destruct (part_name cs c F Pc) as (Q1 & Q2 & Q3 & Q4). destruct (abs_part cwd p c (Some []) Np Pc) as (Ea & Ej). fold D0 in Ea. cbn [fsname] in Ea, Ej.
    assert (One : exists crt1, read_fs cwd order matches fuel f None (path_join p c) (fsname cs None ++ c) crt = Ok crt1 /\ (forall rest e, sel (cs ++ c :: rest) e -> get crt1 (fsname (cs ++ c :: rest) e) = Some e) /\
      (forall n, (forall rest e, sel (cs ++ c :: rest) e -> n <> fsname (cs ++ c :: rest) e) -> get crt1 n = get crt n)).
    { assert (Pos' : (0 < fuel)%nat) by (apply tl_in, Len in Lt; rewrite app_length in Lt; cbn in Lt; lia). destruct e as [d|].
      - destruct fuel as [|fuel']; [lia|]. cbn [read_fs]. rewrite Q4. unfold path_is_dir. destruct (path_join p c) as [|z j] eqn:J; [easy|]. rewrite Ea.
        assert (ND : is_dir f (D0 ++ [c]) = false). { apply Bool.not_true_iff_false. intros H. apply is_dir_look in H; [congruence|now destruct D0]. }
        rewrite ND, Q2. destruct (fsname cs None ++ c) as [|y m] eqn:M; [easy|]. rewrite <- M in *.
        assert (NmE : fsname (cs ++ [c]) (Some d) = fsname cs None ++ c) by (rewrite fs_app by (left; discriminate); reflexivity).
        assert (Only : forall rest e, sel (cs ++ c :: rest) e -> rest = [] /\ e = Some d).
        { intros rest e (H & _). destruct rest as [|w rest]; [split; [reflexivity|]; congruence|]. apply tl_up in H; [congruence|discriminate]. }
        destruct (matches (fsname cs None ++ c)) eqn:Ma.
        + rewrite Q2. unfold read_at. rewrite Ea. unfold file_read. destruct (D0 ++ [c]) as [|w q] eqn:W; [now destruct D0|]. rewrite L. cbn [bind]. eexists. split; [reflexivity|]. split.
          * intros rest e H. destruct (Only _ _ H) as (-> & ->). now rewrite get_set, NmE, zeqb_list_refl.
          * intros n H. rewrite get_set. destruct (zeqb_list n (fsname cs None ++ c)) eqn:E; [|reflexivity]. apply zeqb_list_true in E. exfalso. apply (H [] (Some d)); [split; [exact Lt|right; now rewrite NmE]|]. now rewrite NmE.
        + exists crt. split; [reflexivity|]. split; [|reflexivity]. intros rest e H. destruct (Only _ _ H) as (-> & ->). destruct H as (_ & [H|H]); [discriminate H|]. congruence.
      - destruct (IH (cs ++ [c]) (fsname cs None ++ c) (path_join p c) crt None) as (crt1 & R & A & B); auto.
        + intros k e I. apply Len in I. rewrite app_length. cbn. lia.
        + apply Forall_app; auto.
        + right. now exists cs, c.
        + rewrite Ea. apply is_dir_look; [now destruct D0|exact L].
        + intros c' r. rewrite Ea, <- !app_assoc. apply Same.
        + exists crt1. split; [exact R|]. split.
          * intros rest e H. specialize (A rest e). rewrite <- app_assoc in A. now apply A.
          * intros n H. apply B. intros rest e. rewrite <- app_assoc. apply H. }
    destruct One as (crt1 & -> & A & B). cbn [bind]. destruct (IHl (fun c' I => Ex c' (or_intror I)) crt1) as (crt2 & R & A2 & B2). exists crt2. split; [exact R|]. split.
    - intros c' rest e0 I H. destruct (in_dec zeq_dec c' l) as [I'|I']; [now apply A2|]. destruct I as [<-|I]; [|contradiction]. rewrite B2; [now apply A|].
      intros c' r' e' I H' E. destruct (sel_inj _ _ _ _ H H' E) as (E' & _). apply app_inv_head in E'. injection E' as -> _. contradiction.
    - intros n H. rewrite B2 by (intros c' r' e' I; apply H; now right). apply B. intros rest e0. apply H. now left. }
  destruct (X (order (listdir f D0))) with (crt := crt0) as (crt' & R & A & B); [intros c I; apply in_listdir, Order, I|].
  exists crt'. split; [exact R|]. split.
  - intros [|c rest] e H.
    + rewrite app_nil_r in *. destruct (sel_plain _ _ H) as (Nc & _). pose proof (Dc Nc) as Hd. assert (e = None) by (destruct H; congruence). subst e. rewrite B; [now apply G0|].
      intros c r e' I H' E. destruct (sel_inj _ _ _ _ H H' E) as (E' & _). symmetry in E'. now apply cons_ne in E'.
    + apply A; [|exact H]. apply Order, in_listdir. rewrite Same. destruct rest as [|y rest]; [destruct H; congruence|]. destruct H as (H & _). apply tl_up in H; [congruence|discriminate].
  - intros n H. rewrite B by (intros c rest e _; apply H). apply G0. destruct (path_dec cs []) as [->|Nc]; [now left|right]. specialize (H [] None). rewrite app_nil_r in H. apply H. split; [now apply Dc|now left].
Qed.

Lemma read_all f p : p <> [] -> is_dir f (abs cwd p) = true -> (forall cs, cs <> [] -> look f (abs cwd p ++ cs) = look tree cs) ->
  exists cart', read_cart64_from_fs cwd order matches f p (Some true) [] = Ok cart' /\
    forall n, get cart' n = match get cart n with Some (Some d) => if matches n then Some (Some d) else None | x => x end.
Proof.
  intros Np D Same. unfold read_cart64_from_fs. set (fuel := fold_right _ _ _).
  destruct (read_tree f (Datatypes.S fuel) [] [] p [] (Some true)) as (crt & R & A & B); auto.
  - lia.
  - intros k e I. cbn [length]. destruct (places_plain _ T _ _ I) as (Nk & _). apply tl_in in I. rewrite <- (Same k Nk) in I. apply look_in in I. apply (fold_max (fun x => length (fst x))) in I. cbn [fst] in I. rewrite app_length in I. unfold fuel. lia.
  - easy.
  - intros c r. apply Same. discriminate.
  - exists crt. split; [exact R|]. intros n. cbn [app] in A, B. destruct (get cart n) as [e|] eqn:G.
    + destruct (get_some _ _ G) as (cs & L & ->). assert (Sel : (e = None \/ matches (fsname cs e) = true) -> get crt (fsname cs e) = Some e) by (intros H; apply A; split; assumption).
      destruct e as [d|]; [|apply Sel; now left]. destruct (matches (fsname cs (Some d))) eqn:M; [apply Sel; now right|]. rewrite B; [reflexivity|]. intros rest e (L' & H) E. destruct (tl_plain _ _ L), (tl_plain _ _ L'). apply fs_inj in E; auto. destruct E as (-> & _).
      assert (e = Some d) by congruence. subst e. destruct H as [H|H]; congruence.
    + rewrite B; [reflexivity|]. intros rest e (L & _) ->. rewrite (get_cart _ _ L) in G. discriminate G.
Qed.
End Tree.
