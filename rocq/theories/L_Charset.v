(** Lemmas on the PICO-8 / Unicode conversions. *)
From Verif Require Import M_Base M_Charset L_Util.
Open Scope Z_scope.
Ltac Zify.zify_post_hook ::= Z.div_mod_to_equations.

(** The keys of the reverse map are pairwise different, as a Python dict requires. *)
Fixpoint keys_distinct (m : list (list Z * Z)) : bool :=
  match m with [] => true | (k, _) :: m => negb (existsb (fun x => zeqb_list (fst x) k) m) && keys_distinct m end.
Lemma charset_map_distinct : keys_distinct charset_map = true.
Proof. vm_compute. reflexivity. Qed.

(** How the Unicode form [s] of PICO-8 character [c] is recognised. *)
Definition entry_ok (c : Z) (s : list Z) : bool :=
  match s with
  | [x] => if x <? 0x80 then x =? c
           else match charset_get [x] with Some v => v =? c | None => false end
  | [x; y] => negb (x <? 0x80) && negb (y <? 0x80) &&
              match charset_get [x], charset_get [x; y], charset_get [y] with
              | None, Some v, None => v =? c
              | _, _, _ => false
              end
  | _ => false
  end.
Fixpoint entries_ok (c : Z) (l : list (list Z)) : bool :=
  match l with [] => true | s :: l => entry_ok c s && entries_ok (c + 1) l end.
Lemma charset_entries : entries_ok 0 charset = true /\ entries_ok 0 unicap_charset = true
  /\ length charset = 256%nat /\ length unicap_charset = 256%nat.
Proof. vm_compute. auto. Qed.

Lemma entries_nth l : forall c k s, entries_ok c l = true -> nth_error l k = Some s ->
  entry_ok (c + Z.of_nat k) s = true.
Proof.
  induction l as [|x l IH]; intros c k s H E; [destruct k; discriminate|].
  cbn [entries_ok] in H. apply andb_prop in H as [H1 H2]. destruct k as [|k]; cbn in E.
  - injection E as <-. now rewrite Z.add_0_r.
  - replace (c + Z.of_nat (S k)) with (c + 1 + Z.of_nat k) by lia. eauto.
Qed.

Lemma from_p8char_entry u c : 0 <= c < 256 -> exists s, from_p8char u c = Ok s /\ entry_ok c s = true.
Proof.
  intros Hc. unfold from_p8char, znth. destruct (Z.ltb_spec c 0); [lia|].
  destruct charset_entries as (H1 & H2 & H3 & H4).
  assert (G : forall l, entries_ok 0 l = true -> length l = 256%nat ->
    exists s, match nth_error l (Z.to_nat c) with Some s => Ok s | None => Err EIndex end = Ok s /\ entry_ok c s = true).
  { intros l Hl HL. destruct (nth_error l (Z.to_nat c)) as [s|] eqn:E.
    - exists s. split; [reflexivity|]. pose proof (entries_nth _ _ _ _ Hl E) as K.
      now replace (0 + Z.of_nat (Z.to_nat c)) with c in K by lia.
    - apply nth_error_None in E. lia. }
  destruct u; auto.
Qed.

Lemma to_p8str_entry c s rest : entry_ok c s = true ->
  to_p8str_loop false (s ++ rest) = r <- to_p8str_loop false rest ;; Ok (c :: r).
Proof.
  intros H. destruct s as [|x [|y [|z s]]]; try discriminate.
  - cbn [app to_p8str_loop]. cbn [entry_ok] in H. destruct (x <? 0x80).
    + assert (x = c) as -> by lia. reflexivity.
    + destruct (charset_get [x]) as [v|]; [|discriminate]. assert (v = c) as -> by lia. reflexivity.
  - cbn [entry_ok] in H. apply andb_prop in H as [H H3]. apply andb_prop in H as [H1 H2].
    cbn [app to_p8str_loop firstn]. destruct (x <? 0x80); [discriminate|]. destruct (y <? 0x80); [discriminate|].
    destruct (charset_get [x]); [discriminate|]. destruct (charset_get [x; y]) as [v|]; [|discriminate].
    destruct (charset_get [y]); [discriminate|]. assert (v = c) as -> by lia. reflexivity.
Qed.

Lemma p8str_roundtrip u s : bytes_ok s -> exists t, from_p8str u s = Ok t /\ to_p8str t = Ok s.
Proof.
  induction 1 as [|c s Hc _ (t & IH1 & IH2)]; [exists []; split; reflexivity|].
  destruct (from_p8char_entry u c Hc) as (e & E & He).
  exists (e ++ t). cbn [from_p8str]. rewrite E, IH1. cbn [bind]. split; [reflexivity|].
  unfold to_p8str in *. rewrite (to_p8str_entry c e t He), IH2. reflexivity.
Qed.

(** Converting any Unicode text gives PICO-8 characters only. *)
Lemma charset_get_byte s c : charset_get s = Some c -> 0 <= c < 256.
Proof.
  unfold charset_get. assert (H : forallb (fun x => is_byte (snd x)) charset_map = true) by (vm_compute; reflexivity).
  revert H. generalize charset_map. induction l as [|[k v] m IH]; cbn; [discriminate|].
  intros H. apply andb_prop in H as [H1 H2]. destruct (zeqb_list k s); [|now apply IH].
  intros E. injection E as <-. unfold is_byte in H1. lia.
Qed.

Lemma utf8_encode_bytes c b : 0 <= c < 0x110000 -> utf8_encode c = Ok b -> bytes_ok b.
Proof.
  intros Hc. unfold utf8_encode.
  destruct (Z.ltb_spec c 0x80); [intros E; apply Ok_inj in E; subst b; bytes_lia|].
  destruct (Z.ltb_spec c 0x800); [intros E; apply Ok_inj in E; subst b; bytes_lia|].
  destruct ((0xdc80 <=? c) && (c <=? 0xdcff)) eqn:E1; [intros E; apply Ok_inj in E; subst b; bytes_lia|].
  destruct ((0xd800 <=? c) && (c <=? 0xdfff)); [discriminate|].
  destruct (Z.ltb_spec c 0x10000); intros E; apply Ok_inj in E; subst b; bytes_lia.
Qed.

Lemma to_p8str_bytes t : Forall (fun c => 0 <= c < 0x110000) t -> forall ign s, to_p8str_loop ign t = Ok s -> bytes_ok s.
Proof.
  induction 1 as [|c t Hc _ IH]; intros ign s E; cbn [to_p8str_loop] in E; [injection E as <-; constructor|].
  destruct (Z.ltb_spec c 0x80).
  - destruct (to_p8str_loop ign t) as [r|] eqn:Er; [|discriminate]. injection E as <-. constructor; [lia|exact (IH _ _ Er)].
  - destruct (charset_get [c]) as [v|] eqn:Ev.
    + destruct (to_p8str_loop ign t) as [r|] eqn:Er; [|discriminate]. injection E as <-.
      constructor; [eapply charset_get_byte; eassumption|exact (IH _ _ Er)].
    + destruct ign; [exact (IH _ _ E)|]. destruct (charset_get (c :: firstn 1 t)) as [v|] eqn:Ew.
      * destruct (to_p8str_loop true t) as [r|] eqn:Er; [|discriminate]. injection E as <-.
        constructor; [eapply charset_get_byte; eassumption|exact (IH _ _ Er)].
      * destruct (utf8_encode c) as [b|] eqn:Eb; [|discriminate]. cbn [bind] in E.
        destruct (to_p8str_loop false t) as [r|] eqn:Er; [|discriminate]. injection E as <-.
        apply Forall_app. split; [eapply utf8_encode_bytes; eassumption|exact (IH _ _ Er)].
Qed.

(** Conversion is compatible with concatenation. *)
Lemma from_p8str_app u a b : from_p8str u (a ++ b) = x <- from_p8str u a ;; y <- from_p8str u b ;; Ok (x ++ y).
Proof.
  induction a as [|c a IH]; cbn [app from_p8str bind]; [destruct (from_p8str u b); reflexivity|].
  destruct (from_p8char u c) as [s|]; [|reflexivity]. cbn [bind]. rewrite IH.
  destruct (from_p8str u a); [|reflexivity]. cbn [bind].
  destruct (from_p8str u b); [|reflexivity]. cbn [bind]. now rewrite app_assoc.
Qed.
