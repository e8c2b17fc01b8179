(** Lemmas on carts as files: text that is written and read, what is in the texts, and what they begin with. *)
From Coq Require Import String.
From Verif Require Import M_Base L_Util M_Memory L_Memory M_Charset M_Fold S_Fold L_Fold M_Compress M_Rom S_Rom L_Rom L_Image M_Text S_Num S_Text L_Text L_TextRead L_TextFile.
From Verif Require Import M_Url S_Url L_Url M_Expr M_Pod L_Luastr M_Files M_Cart64 M_P64 M_Auto S_Auto.
Open Scope Z_scope.
Ltac Zify.zify_post_hook ::= Z.div_mod_to_equations.
Local Opaque mem_create_rom.

(** ** Texts as bytes *)
Lemma encode_scalar c : scalar c -> exists b, utf8_encode c = Ok b /\ b <> [] /\ hd 0 b <> 137.
Proof.
  intros (H & N). unfold utf8_encode. destruct (Z.ltb_spec c 128); [eexists; split; [reflexivity|split; [easy|cbn [hd]; lia]]|].
  destruct (Z.ltb_spec c 2048); [eexists; split; [reflexivity|split; [easy|cbn [hd]; lia]]|].
  replace ((56448 <=? c) && (c <=? 56575)) with false by lia. replace ((55296 <=? c) && (c <=? 57343)) with false by lia.
  destruct (Z.ltb_spec c 65536); (eexists; split; [reflexivity|split; [easy|cbn [hd]; lia]]).
Qed.
Lemma text_round s : Forall scalar s -> exists b, encode_text s = Ok b /\ decode_luastr b = s /\ hd 0 b <> 137.
Proof.
  induction 1 as [|c s H _ (b & E & D & _)]; [now exists []|]. destruct (encode_scalar c H) as (a & A & Na & Ha). exists (a ++ b).
  cbn [encode_text]. destruct H as (H & N). replace ((0xd800 <=? c) && (c <=? 0xdfff)) with false by lia. rewrite A, E. cbn [bind].
  split; [reflexivity|]. split; [rewrite (decode_char c a b A H) by lia; now rewrite D|]. now destruct a.
Qed.
Lemma not_png b : hd 0 b <> 137 -> starts_with k_png_header b = false.
Proof. intros H. destruct b as [|x b]; [reflexivity|]. cbn in H. unfold starts_with. cbn [k_png_header length firstn zeqb_list]. destruct (Z.eqb_spec 137 x); [lia|reflexivity]. Qed.
Lemma universal_id s : ~ In 13 s -> universal s = s.
Proof. induction s as [|c s IH]; [easy|]. intros H. cbn [universal]. destruct (Z.eqb_spec c 13); [destruct H; now left|]. f_equal. apply IH. intros K. apply H. now right. Qed.
Lemma scalar_text b s : decode_luastr b = s -> Forall scalar s -> ~ In 13 s -> file_text b = Ok s.
Proof.
  intros D F N. unfold file_text, maybe_text. rewrite D, universal_id by exact N. destruct (existsb _ s) eqn:E; [|reflexivity].
  apply existsb_exists in E as (c & I & E). rewrite Forall_forall in F. specialize (F c I). unfold scalar in F. lia.
Qed.

(** ** What is in the text of a cart *)
Lemma map_res_Forall {A B} (P : B -> Prop) (f : A -> res B) l : forall l', (forall x y, In x l -> f x = Ok y -> P y) -> map_res f l = Ok l' -> Forall P l'.
Proof.
  induction l as [|x l IH]; intros l' H E; cbn [map_res] in E; [injection E as <-; constructor|].
  destruct (f x) as [y|] eqn:Ey; [|discriminate]. destruct (map_res f l) as [ys|]; [|discriminate]. injection E as <-.
  constructor; [apply (H x); [now left|exact Ey]|]. apply IH; [|reflexivity]. intros z w I. apply H. now right.
Qed.
Lemma get8_byte m i b : bytes_ok m -> get8 m i = Ok b -> 0 <= b < 256.
Proof.
  intros B E. unfold get8 in E. destruct (py_index (zlen m) i) as [k|]; [|discriminate]. injection E as <-. destruct (nth_in_or_default k m 0) as [I| ->]; [|lia].
  unfold bytes_ok in B. rewrite Forall_forall in B. exact (B _ I).
Qed.
Lemma get16_word m i n : bytes_ok m -> get16 m i = Ok n -> 0 <= n < 65536.
Proof.
  intros B E. unfold get16 in E. destruct (get8 m i) as [a|] eqn:A; [|discriminate]. destruct (get8 m (i + 1)) as [b|] eqn:C; [|discriminate]. apply Ok_inj in E. subst n.
  apply get8_byte in A; [|exact B]. apply get8_byte in C; [|exact B]. rewrite lor_add by lia. change (2 ^ 8) with 256. lia.
Qed.
Lemma land_range a k : 0 <= k -> 0 <= Z.land a (Z.ones k) < 2 ^ k.
Proof. intros H. rewrite Z.land_ones by exact H. apply Z.mod_pos_bound. lia. Qed.
Lemma get4_nyb m ix b : bytes_ok m -> get4 m ix = Ok b -> 0 <= b < 16.
Proof.
  intros B E. unfold get4, get8_bits in E. destruct (get8 m (fst ix)) as [a|]; cbn [bind] in E; [|discriminate E]. apply Ok_inj in E. subst b. exact (land_range _ 4 ltac:(lia)).
Qed.
Section Chars.
Context (Q : Z -> Prop) (Vis : forall c, 32 <= c < 127 -> Q c) (Nl : Q 10).
Lemma hexc_Q d : 0 <= d < 16 -> Q (hexc d).
Proof. intros H. apply Vis. destruct (hexc_plain d H). lia. Qed.
Lemma hex2_Q b : 0 <= b < 256 -> Forall Q (hex2 b).
Proof. intros H. unfold hex2. repeat constructor; apply hexc_Q; lia. Qed.
Lemma concat_Q l : Forall (Forall Q) l -> Forall Q (concat l).
Proof. induction 1; cbn; [constructor|]. now apply Forall_app. Qed.

Lemma gfx_Q m y t : bytes_ok m -> gfx_text m y = Ok t -> Forall Q t.
Proof.
  intros B. unfold gfx_text. apply map_res_Forall. intros x c _ E. destruct (get4 m (mem_sprite_addr x y)) as [b|] eqn:G; [|discriminate]. apply Ok_inj in E. subst c. apply hexc_Q. now apply get4_nyb in G.
Qed.
Lemma bytes_Q addr m n t : bytes_ok m -> bytes_text addr m n = Ok t -> Forall Q t.
Proof.
  intros B. unfold bytes_text. destruct (map_res _ _) as [l|] eqn:E; [|discriminate]. cbn [bind]. intros X. apply Ok_inj in X. subst t. apply concat_Q. revert E. apply map_res_Forall.
  intros x c _ E. destruct (get8 m (addr x)) as [b|] eqn:G; [|discriminate]. apply Ok_inj in E. subst c. apply hex2_Q. now apply get8_byte in G.
Qed.
Lemma sfx_Q m y t : bytes_ok m -> sfx_text m y = Ok t -> Forall Q t.
Proof.
  intros B. unfold sfx_text. destruct (bytes_text _ m 4) as [i|] eqn:Ei; [|discriminate]. cbn [bind]. destruct (map_res _ _) as [l|] eqn:E; [|discriminate]. cbn [bind]. intros X. apply Ok_inj in X. subst t.
  apply Forall_app. split; [now apply bytes_Q in Ei|]. apply concat_Q. revert E. apply map_res_Forall.
  intros x c _ E. destruct (get16 m _) as [n|] eqn:G; [|discriminate]. apply Ok_inj in E. subst c. apply get16_word in G; [|exact B].
  destruct (note_text_ok n G) as (n1 & n2 & n3 & n4 & n5 & -> & F & _). rewrite Forall_map. eapply Forall_impl; [|exact F]. apply hexc_Q.
Qed.
Lemma music_Q m y t : bytes_ok m -> music_text m y = Ok t -> Forall Q t.
Proof.
  intros B. unfold music_text. destruct (map_res _ _) as [l|] eqn:E; [|discriminate]. cbn [bind]. intros X. apply Ok_inj in X. subst t.
  assert (F : Forall (fun b => 0 <= b < 256) l) by (revert E; apply map_res_Forall; intros x b _; now apply get8_byte).
  assert (L : length l = 4%nat).
  { clear F. revert E. change (zrange_from 0 4) with [0; 1; 2; 3]. cbn [map_res]. repeat match goal with |- context [get8 m ?a] => destruct (get8 m a); cbn [bind]; [|discriminate] end. intros X. apply Ok_inj in X. now subst l. }
  destruct l as [|a [|b [|c [|d [|]]]]]; try discriminate. repeat match goal with H : Forall _ (_ :: _) |- _ => inversion H; subst; clear H end.
  rewrite music_bits by assumption. cbn [app map concat]. 
  assert (H7 : forall a, Forall Q (hex2 (Z.land a 127))) by (intros; apply hex2_Q; pose proof (land_range a0 7 ltac:(lia)) as K; change (Z.ones 7) with 127 in K; change (2 ^ 7) with 128 in K; lia).
  apply Forall_app. split; [apply hex2_Q; lia|]. constructor; [apply Vis; lia|]. rewrite !Forall_app. auto.
Qed.
Lemma section_Q on name n row ls : Forall Q name -> (forall y t, row y = Ok t -> Forall Q t) -> section_lines on name n row = Ok ls -> Forall (Forall Q) ls.
Proof.
  intros Hn H. unfold section_lines. destruct (on && negb (Nat.eqb n 0)); [|intros X; apply Ok_inj in X; subst; constructor].
  destruct (map_res row _) as [r|] eqn:E; [|discriminate]. cbn [bind]. intros X. apply Ok_inj in X. subst. constructor.
  - unfold header_line, under. repeat (apply Forall_app; split); auto; repeat constructor; apply Vis; lia.
  - revert E. apply map_res_Forall. intros x y _. apply H.
Qed.
Lemma vis_Q l : forallb (fun c => (32 <=? c) && (c <? 127)) l = true -> Forall Q l.
Proof. intros H. apply Forall_forall. intros c I. rewrite forallb_forall in H. specialize (H c I). apply Vis. lia. Qed.
Lemma digits_Q v : 0 <= v -> Forall Q (dec_str v).
Proof. intros H. pose proof (dec_str_ok v H) as K. destruct K as (_ & F & _). eapply Forall_impl; [|exact F]. cbn. intros c X. apply Vis. lia. Qed.
Lemma source_Q u c text : bytes_ok (c_rom c) -> bytes_ok (c_code c) -> match c_label c with Some l => label_ok 32 l | None => True end ->
  Forall Q (image u (c_code c)) -> Forall (fun '(k, v) => Forall Q k /\ Forall (Forall Q) v) (c_meta c) -> 0 <= c_version_id c ->
  write_cart_to_source u None c = Ok text -> Forall Q text.
Proof.
  intros Br Bc Hl Hc Hm Hv. unfold write_cart_to_source. destruct mem_create_rom as [d|]; [|discriminate]. cbn [bind included]. rewrite from_image by exact Bc. cbn [bind].
  repeat match goal with |- context [section_lines ?a ?b ?c ?d] => destruct (section_lines a b c d) eqn:?; [|discriminate]; cbn [bind] end.
  intros X. apply Ok_inj in X. subst text. unfold join_nl. apply concat_Q. rewrite Forall_map. eapply Forall_impl with (P := Forall Q); [intros l F; apply Forall_app; split; [exact F|repeat constructor; exact Nl]|].
  rewrite !Forall_app. repeat match goal with |- _ /\ _ => split end.
  - constructor; [apply vis_Q; reflexivity|]. constructor; [|constructor]. apply Forall_app. split; [apply vis_Q; reflexivity|now apply digits_Q].
  - constructor; [apply vis_Q; reflexivity|]. constructor; [exact Hc|constructor].
  - apply section_Q in Heqr; [exact Heqr|apply vis_Q; reflexivity|intros y t; now apply gfx_Q].
  - apply section_Q in Heqr0; [exact Heqr0|apply vis_Q; reflexivity|intros y t; now apply bytes_Q].
  - apply section_Q in Heqr1; [exact Heqr1|apply vis_Q; reflexivity|intros y t; now apply bytes_Q].
  - apply section_Q in Heqr2; [exact Heqr2|apply vis_Q; reflexivity|intros y t; now apply sfx_Q].
  - apply section_Q in Heqr3; [exact Heqr3|apply vis_Q; reflexivity|intros y t; now apply music_Q].
  - destruct (c_label c) as [l|]; [|constructor]. destruct (true && _); [|constructor]. constructor; [apply vis_Q; reflexivity|].
    destruct Hl as (_ & F). rewrite Forall_map. eapply Forall_impl; [|exact F]. cbn. intros r (_ & G). rewrite Forall_map. eapply Forall_impl; [|exact G]. cbn. intros v V. apply Vis. pose proof (ext_chars v V). lia.
  - apply Forall_concat. rewrite Forall_map. eapply Forall_impl; [|exact Hm]. intros [k v] (K & V). constructor; [|exact V].
    unfold header_line. repeat (apply Forall_app; split); auto; apply vis_Q; reflexivity.
Qed.
End Chars.

(** ** Code *)
Definition p8_checks (u : bool) (c : Z) : bool :=
  match p8_image u c with
  | x :: r => (if x <? 128 then zeqb_list (x :: r) [c] else true) && forallb (fun x => (0 <=? x) && (x <? 0x110000) && negb ((0xd800 <=? x) && (x <=? 0xdfff))) (x :: r)
  | [] => false
  end.
Lemma p8_sweep : forall u c, 0 <= c < 256 -> p8_checks u c = true.
Proof.
  assert (H : forallb (fun c => p8_checks true c && p8_checks false c) (zrange_from 0 256) = true) by (vm_compute; reflexivity).
  intros u c Hc. rewrite forallb_forall in H. specialize (H c). rewrite zrange_In in H. specialize (H ltac:(lia)).
  apply andb_prop in H as [H1 H2]. destruct u; assumption.
Qed.
Lemma image_scalar u s : bytes_ok s -> Forall scalar (image u s).
Proof.
  intros B. unfold image. apply Forall_concat. rewrite Forall_map. eapply Forall_impl; [|exact B]. intros c H. unfold is_byte in H. pose proof (p8_sweep u c ltac:(lia)) as K. unfold p8_checks in K.
  destruct (p8_image u c) as [|x r]; [discriminate|]. apply andb_prop in K as [_ K]. apply Forall_forall. intros y I. rewrite forallb_forall in K. specialize (K y I). unfold scalar. lia.
Qed.
Lemma image_no_cr u s : bytes_ok s -> ~ In 13 s -> ~ In 13 (image u s).
Proof.
  intros B N I. apply in_split in I as (r & w & E). destruct (image_split u 13 s r w ltac:(cbn; auto) B E) as (r' & w' & -> & _). apply N. apply in_elt.
Qed.
Lemma image_prefix u p : forall s, bytes_ok s -> Forall (fun c => c < 128) p -> starts_with p (image u s) = true -> exists t, s = p ++ t.
Proof.
  induction p as [|x p IH]; intros s B F H; [now exists s|]. apply starts_with_iff in H as (r & H). inversion F as [|? ? Fx Fp]; subst. destruct s as [|c s]; [discriminate|].
  inversion B as [|? ? Bc Bs]; subst. unfold is_byte in Bc. pose proof (p8_sweep u c ltac:(lia)) as K. unfold p8_checks in K. unfold image in H. cbn [map concat] in H. fold (image u s) in H.
  destruct (p8_image u c) as [|y e]; [discriminate|]. apply andb_prop in K as [K _]. cbn [app] in H. injection H as -> H. destruct (Z.ltb_spec x 128); [|lia].
  apply zeqb_list_true in K. injection K as -> ->. cbn [app] in H. destruct (IH s Bs Fp) as (t & ->); [apply starts_with_iff; now exists r|]. now exists t.
Qed.

(** ** Urls and the clipboard *)
Definition vis (c : Z) : Prop := 33 <= c < 127.
Lemma b64c_vis v : 0 <= v -> vis (b64c v).
Proof. intros H. unfold b64c, vis. repeat match goal with |- context [if ?x then _ else _] => destruct x eqn:? end; lia. Qed.
Lemma b64_vis d : bytes_ok d -> Forall vis (b64_encode d).
Proof.
  assert (H : forall n d, (length d <= n)%nat -> bytes_ok d -> Forall vis (b64_encode d)).
  { assert (Q : vis 61) by (unfold vis; lia).
    induction n; intros [|a [|b [|c t]]] Hn B; cbn [length] in Hn; try lia; try (apply Forall_nil);
      pose proof (Forall_inv B) as Ha; cbn beta in Ha; apply Forall_inv_tail in B; cbn [b64_encode].
    - repeat apply Forall_cons; try apply Forall_nil; auto; apply b64c_vis; lia.
    - pose proof (Forall_inv B) as Hb; cbn beta in Hb. repeat apply Forall_cons; try apply Forall_nil; auto; apply b64c_vis; lia.
    - pose proof (Forall_inv B) as Hb; cbn beta in Hb. apply Forall_inv_tail in B. pose proof (Forall_inv B) as Hc; cbn beta in Hc. apply Forall_inv_tail in B.
      repeat apply Forall_cons; try (apply b64c_vis; lia). apply IHn; [lia|assumption]. }
  now apply (H (length d)).
Qed.
Lemma run_vis n : forall color total, 0 <= color -> Forall vis (run_chars n color total).
Proof.
  induction n as [|n IH]; intros color total H; cbn [run_chars]; [constructor|]. destruct (Z.ltb_spec 0 total); [|constructor].
  constructor; [apply b64c_vis; apply Z.lor_nonneg; split; [apply Z.shiftl_nonneg; lia|exact H]|]. apply Forall_app. split; [|now apply IH].
  destruct (Z.leb_spec 4 (Z.min total (63 + 4))); [repeat constructor; apply b64c_vis; lia|constructor].
Qed.
Lemma runs_vis rest : forall color count, 0 <= color -> Forall (fun v => 0 <= v) rest -> Forall vis (gfx_runs color count rest).
Proof.
  induction rest as [|c rest IH]; intros color count H F; cbn [gfx_runs]; [now apply run_vis|]. inversion F; subst. destruct (c =? color); [now apply IH|]. apply Forall_app. split; [now apply run_vis|now apply IH].
Qed.
Lemma write_gfx_vis m gfx : bytes_ok m -> write_gfx m = Ok gfx -> Forall vis gfx.
Proof.
  intros B. unfold write_gfx. destruct (map_res _ _) as [ps|] eqn:E; [|discriminate]. cbn [bind].
  assert (F : Forall (fun v => 0 <= v) ps). { revert E. apply map_res_Forall. intros x y _ G. unfold pixel in G. apply get4_nyb in G; [lia|exact B]. }
  destruct ps as [|c r]; intros X; apply Ok_inj in X; subst gfx; [constructor|]. inversion F; subst. now apply runs_vis.
Qed.
Lemma vis_scalar l : Forall vis l -> Forall scalar l.
Proof. intros F. eapply Forall_impl; [|exact F]. unfold vis, scalar. lia. Qed.
Lemma vis_no_cr l : Forall vis l -> ~ In 13 l.
Proof. intros F I. rewrite Forall_forall in F. specialize (F _ I). unfold vis in F. lia. Qed.
Lemma vis_rstrip l : Forall vis l -> rstrip l = l.
Proof.
  intros F. unfold rstrip. rewrite <- (rev_involutive l) at 2. f_equal. apply Forall_rev in F. destruct F as [|c r V _]; [reflexivity|].
  cbn [lstrip]. replace (py_isspace c) with false; [reflexivity|]. unfold py_isspace, vis in *. lia.
Qed.
Lemma clip_vis d : bytes_ok d -> Forall vis (write_raw_to_clip d).
Proof.
  intros B. unfold write_raw_to_clip. repeat (apply Forall_app; split); try (repeat constructor; unfold vis; lia). unfold bytes_hex. apply Forall_concat. rewrite Forall_map. eapply Forall_impl; [|exact B].
  intros c H. unfold is_byte in H. unfold hex2. repeat constructor; unfold vis; match goal with |- context [hexc ?d] => pose proof (hexc_plain d ltac:(lia)) end; lia.
Qed.

(** The format "code": the code under its header, with a final newline lost. *)
Section Code.
Context (int16 int10 : list Z -> option Z) (lower : Z -> list Z).
Lemma code_reads : forall u c d, bytes_ok (c_code c) -> plain_code (c_code c) -> mem_create_rom = Ok d ->
  exists code, write_cart_to_raw_source true u c = Ok (header_line str_lua ++ [10] ++ image u (c_code c)) /\
    (c_code c = code ++ [10] \/ c_code c = code /\ forall r, code <> r ++ [10]) /\
    forall preprocess, read_cart_from_source int16 int10 lower preprocess false (header_line str_lua ++ [10] ++ image u (c_code c)) =
      (code' <- preprocess code (match c_code c with [] => 0 | _ => 1 end) ;; Ok (with_code (new_cart d) code' None)).
Proof.
  intros u c d B P Hd. unfold write_cart_to_raw_source. rewrite from_image by exact B. cbn [bind].
  set (code := match rev (c_code c) with x :: r => if x =? 10 then rev r else c_code c | [] => c_code c end).
  assert (Split : c_code c = code ++ [10] \/ c_code c = code /\ forall r, code <> r ++ [10]).
  { unfold code. destruct (rev (c_code c)) as [|x r] eqn:R.
    - right. split; [reflexivity|]. intros r E. rewrite E, rev_app_distr in R. discriminate R.
    - assert (E : c_code c = rev r ++ [x]) by (rewrite <- (rev_involutive (c_code c)), R; reflexivity).
      destruct (Z.eqb_spec x 10) as [->|NX]; [left; exact E|]. right. split; [reflexivity|]. intros q Q. rewrite E in Q. apply app_inj_tail in Q as [_ Q]. contradiction. }
  exists code. split; [reflexivity|]. split; [exact Split|]. clearbody code. intros preprocess.
  assert (Bc : bytes_ok code) by (destruct Split as [E|[E _]]; rewrite E in B; [apply bytes_app_inv in B; apply B|exact B]).
  assert (Pc : plain_code code).
  { intros l ((x & y & E) & N). apply P. split; [|exact N].
    destruct Split as [S|[S _]]; rewrite S; [|exists x, y; exact E]. exists x, (y ++ [10]). cbn [app].
    change (10 :: (code ++ [10]) ++ [10]) with ((10 :: code ++ [10]) ++ [10]). rewrite E, <- !app_assoc. cbn [app]. rewrite <- app_assoc. reflexivity. }
  assert (G : Forall good_line (lines_of (image u code))).
  { rewrite lines_image by exact Bc. rewrite Forall_map. eapply Forall_impl; [|exact (plain_lines u code Bc Pc)]. cbn. tauto. }
  assert (GH : Forall good_line (header_line str_lua :: lines_of (image u code))).
  { constructor; [|exact G]. split; [cbn; lia|]. intros r E. apply (f_equal (@rev Z)) in E. rewrite rev_app_distr in E. discriminate E. }
  unfold read_cart_from_source. rewrite Hd. cbn [bind orb].
  replace (starts_with (header_line str_lua) (header_line str_lua ++ [10] ++ image u (c_code c))) with true by (symmetry; apply starts_with_iff; eexists; reflexivity).
  rewrite andb_false_r.
  set (st := mkrs None 0 [] 0 (new_cart d)).
  destruct (lua_reads int16 int10 lower u code st 0 Bc Pc eq_refl) as (h & y & A). change (0 + 1) with 1 in A.
  assert (R : exists h y, read_lines int16 int10 lower false st 0 (p8_split_lines (header_line str_lua ++ [10] ++ image u (c_code c))) =
    Ok (mkrs h y code (match c_code c with [] => 0 | _ => 1 end) (new_cart d))).
  { destruct Split as [E|[E N]].
    - replace (match c_code c with [] => 0 | _ => 1 end) with 1 by (rewrite E; now destruct code).
      rewrite E, image_app. replace (image u [10]) with [10] by (unfold image; cbn [map concat]; rewrite image_fixed by (cbn; tauto); reflexivity).
      replace (header_line str_lua ++ [10] ++ image u code ++ [10]) with (join_nl (header_line str_lua :: lines_of (image u code))).
      + rewrite split_join by exact GH. exists h, y. exact A.
      + unfold join_nl. cbn [map concat]. fold (join_nl (lines_of (image u code))). rewrite lines_of_join, <- app_assoc. reflexivity.
    - rewrite E. destruct code as [|x code]; [exists (Some str_lua), 0; reflexivity|].
      assert (L : lines_of (header_line str_lua ++ [10] ++ image u (x :: code)) = header_line str_lua :: lines_of (image u (x :: code))).
      { reflexivity. }
      rewrite lines_no_final.
      + rewrite L. exists h, y. exact A.
      + discriminate.
      + intros r Z.
        assert (NI : image u (x :: code) <> []) by (intros K; apply image_nil in K; [discriminate K|exact Bc]).
        destruct (exists_last NI) as (i & e & Q). rewrite Q in Z. rewrite !app_assoc in Z. apply app_inj_tail in Z as [_ ->].
        destruct (image_split u 10 _ i [] ltac:(cbn; tauto) Bc Q) as (s1 & s2 & E1 & _ & E2).
        assert (B2 : bytes_ok s2) by (rewrite E1 in Bc; apply bytes_app_inv in Bc as [_ Bc]; inversion Bc; assumption).
        apply image_nil in E2; [|exact B2]. subst s2. exact (N s1 E1).
      + rewrite L. exact GH. }
  destruct R as (h' & y' & R). rewrite R. reflexivity.
Qed.
End Code.
