(** C44, C14, C65: Picotron roms, images and tiny roms. *)
From Coq Require Import Permutation Sorted.
From Verif Require Import M_Base L_Util M_BitIO M_Compress M_Rom M_Text L_Pre M_Files S_Files L_Files M_Cart64 S_Cart64 L_Cart64 L_Image64
  L_OldFormat L_CompressTop L_LzTop.
Open Scope Z_scope.

(** C44: a cart of sound files, of any number, names and contents, is either refused
    because it is over the limit or over four gigabytes, or written to bytes that read back, whatever follows
    them, as the same version and the same files, with directories first. *)
Theorem C44_roundtrip : forall cart fast, sound_files (c64_files cart) -> 0 <= c64_version cart < 256 ->
  exists size, (forall padding limit, over limit size -> write_cart64_to_rom padding limit fast cart = Err ECheck) /\
    (4294967296 <= size - 8 -> forall padding limit, ~ over limit size -> write_cart64_to_rom padding limit fast cart = Err EStruct) /\
    (size - 8 < 4294967296 -> forall padding limit, ~ over limit size ->
      exists rom, write_cart64_to_rom padding limit fast cart = Ok rom /\ zlen rom = size + Z.of_nat padding /\ bytes_ok rom /\
        forall version tiny tail, exists fs,
          read_cart64_from_rom version tiny (rom ++ tail) = Ok (mkcart64 (c64_version cart) fs) /\
          Permutation (c64_files cart) fs /\ dirs_first fs).
Proof.
  intros cart fast S V. destruct (rom_roundtrip cart fast S V) as (size & A & A' & B). exists size. split; [exact A|].
  split; [intros Hs; apply A'; lia|]. intros Hs padding limit No. destruct (B ltac:(lia)) as (rom & E & L & Br & R). exists (rom ++ repeat 0 padding).
  split; [now apply E|]. split; [rewrite zlen_app, L; unfold zlen; rewrite repeat_length; lia|]. split.
  - apply Forall_app. split; [easy|]. apply Forall_forall. intros x I. apply repeat_spec in I. lia.
  - intros version tiny tail. rewrite <- app_assoc. eexists. split; [apply R|]. split; [apply sorted_by_perm|]. apply sorted_dirs_first, S.
Qed.

(** a case: a directory, the program and another file in the directory *)
Example C44_case :
  let cart := mkcart64 7 [([109;97;105;110;46;108;117;97], Some [112;114;105;110;116;40;49;41]); ([97;47;98], Some []); ([97;47], None)] in
  sound_files (c64_files cart) /\
  exists rom, write_cart64_to_rom 2 (Some 100) true cart = Ok rom /\
    read_cart64_from_rom 0 false rom = Ok (mkcart64 7 [([97;47], None); ([109;97;105;110;46;108;117;97], Some [112;114;105;110;116;40;49;41]); ([97;47;98], Some [])]).
Proof.
  cbn zeta. split.
  - split; [cbn; repeat constructor; cbn; intuition discriminate|]. cbn [c64_files].
    assert (K : forall q (x : Z) l, ~ x = 47 -> l ++ [x] <> q ++ [47]) by (intros q x l N E; apply app_inj_tail in E; easy).
    constructor; [|constructor; [|constructor; [|constructor]]].
    + split; [repeat (constructor; [lia|]); constructor|]. split; [intros q; apply (K q 97 [109;97;105;110;46;108;117]); lia|].
      split; [repeat (constructor; [lia|]); constructor|cbn; lia].
    + split; [repeat (constructor; [lia|]); constructor|]. split; [intros q; apply (K q 98 [97;47]); lia|]. split; [constructor|cbn; lia].
    + split; [repeat (constructor; [lia|]); constructor|]. now exists [97].
  - eexists. split; vm_compute; reflexivity.
Qed.

(** C14: a rom of at most 256 kilobytes is hidden in a picture of 512 by 384 pixels and
    found again, followed by zeros; the picture looks the same. *)
Theorem C14_bytes : forall rom image, bytes_ok rom -> zlen rom <= 262144 -> zlen image = 512 * 384 ->
  let output := rom ++ repeat 0 4 in
  exists image', image64_hide (zlen output) (br_init output) image = Ok image' /\
    Forall2 looks_same image image' /\ exists k, image64_bytes image' = rom ++ repeat 0 k.
Proof.
  intros rom image B L Li. destruct (image64_roundtrip rom image B) as (image' & E & _ & H & K).
  - now rewrite Li.
  - lia.
  - now exists image'.
Qed.

(** A cart is refused if it does not fit, and otherwise the picture reads back as the same
    version and files, with a label picture added if it had none. *)
Theorem C14_cart : forall cart image fast, sound_files (c64_files cart) -> 0 <= c64_version cart < 256 ->
  zlen image = 512 * 384 ->
  (write_cart64_to_rom 0 (Some 262144) fast cart = Err ECheck /\ write_cart64_to_image fast image cart = Err ECheck) \/
  (exists rom image', write_cart64_to_rom 0 (Some 262144) fast cart = Ok rom /\
    write_cart64_to_image fast image cart = Ok image' /\ Forall2 looks_same image image' /\
    forall save_qoi save_png version, exists fs label,
      read_cart64_from_image save_qoi save_png version image' = Ok (mkcart64 (c64_version cart) (fs ++ label)) /\
      Permutation (c64_files cart) fs /\
      (if existsb (fun f => zeqb_list (fst f) label_qoi || zeqb_list (fst f) label_png) (c64_files cart) then label = []
       else exists name data, label = [(name, Some data)] /\ (name = label_qoi \/ name = label_png))).
Proof.
  intros cart image fast S V Li. destruct (rom_roundtrip cart fast S V) as (size & A & _ & B).
  destruct (Z.lt_ge_cases 262144 size) as [Hs|Hs].
  - left. assert (O : over (Some 262144) size) by (exists 262144; repeat split; lia). split; [now apply A|].
    unfold write_cart64_to_image. now rewrite A.
  - right. assert (No : ~ over (Some 262144) size) by (intros (l & E & _ & Hl); injection E as <-; lia).
    destruct (B ltac:(lia)) as (rom & E & L & Br & R).
    destruct (C14_bytes rom image Br ltac:(lia) Li) as (image' & H & Lk & k & K). exists rom, image'.
    split; [rewrite E by easy; cbn [repeat]; now rewrite app_nil_r|]. unfold write_cart64_to_image. change k_cart64_size with 262144.
    rewrite E by easy. cbn [bind]. rewrite Li. change (check_ (512 * 384 =? k_cart64_image_w * k_cart64_image_h)) with (Ok tt). cbn [bind].
    split; [exact H|]. split; [exact Lk|]. intros save_qoi save_png version. unfold read_cart64_from_image.
    assert (Li' : zlen image' = 512 * 384) by (rewrite <- Li; unfold zlen; f_equal; clear -Lk; induction Lk; cbn; congruence).
    rewrite Li'. change (check_ (512 * 384 =? k_cart64_image_w * k_cart64_image_h)) with (Ok tt). cbn [bind].
    rewrite K, R. cbn [bind c64_files c64_version].
    pose proof (sorted_by_perm ext_leb (c64_files cart)) as P. set (fs := sorted_by _ _) in *.
    destruct S as (N & _).
    assert (Hn : forall name, get fs name = None <-> ~ In name (map fst (c64_files cart))).
    { intros name. rewrite get_None. split; intros H' I; apply H'.
      - eapply Permutation_in; [apply Permutation_map, P|exact I].
      - eapply Permutation_in; [apply Permutation_map, Permutation_sym, P|exact I]. }
    assert (Ex : existsb (fun f => zeqb_list (fst f) label_qoi || zeqb_list (fst f) label_png) (c64_files cart) = true <->
      In label_qoi (map fst (c64_files cart)) \/ In label_png (map fst (c64_files cart))).
    { rewrite existsb_exists. split.
      - intros (f & I & H'). apply orb_true_iff in H'. rewrite !zeqb_list_true in H'. destruct H' as [<-|<-]; [left|right]; now apply in_map.
      - intros [I|I]; apply in_map_iff in I as (f & <- & I); exists f; (split; [easy|]); rewrite zeqb_list_refl; [easy|apply orb_true_r]. }
    destruct (existsb _ _).
    + exists fs, []. rewrite app_nil_r. split; [|split; [exact P|easy]].
      destruct (get fs label_qoi) eqn:Gq; [easy|]. destruct (get fs label_png) eqn:Gp; [easy|]. exfalso.
      apply Hn in Gq, Gp. destruct (proj1 Ex eq_refl); easy.
    + assert (Nq : ~ In label_qoi (map fst (c64_files cart))) by (intros I; now discriminate (proj2 Ex (or_introl I))).
      assert (Np : ~ In label_png (map fst (c64_files cart))) by (intros I; now discriminate (proj2 Ex (or_intror I))).
      rewrite (proj2 (Hn _) Nq), (proj2 (Hn _) Np). apply Hn in Nq, Np. rewrite get_None in Nq, Np. destruct (save_qoi _) as [data|].
      * exists fs, [(label_qoi, Some data)]. rewrite set_new by easy. split; [easy|]. split; [exact P|]. exists label_qoi, data. split; [easy|now left].
      * eexists fs, [(label_png, Some _)]. rewrite set_new by easy. split; [reflexivity|]. split; [exact P|]. eexists label_png, _. split; [reflexivity|now right].
Qed.

(** a case for both: a small cart fits, in a picture of any colours *)
Example C14_case :
  let cart := mkcart64 7 [([97], Some [112;114;105;110;116])] in
  exists rom, write_cart64_to_rom 0 (Some 262144) true cart = Ok rom /\ zlen rom = 17 /\ bytes_ok rom.
Proof. cbn zeta. eexists. split; [vm_compute; reflexivity|]. split; [reflexivity|]. repeat (constructor; [lia|]). constructor. Qed.

(** C65: a tiny rom is the shortest of the program, its compressed form and the rom with the
    program alone. *)
Theorem C65_smallest : forall version fast data rom,
  write_cart64_to_tiny_rom version fast data = Ok rom ->
  exists pxa lz, compress_code (mkcopts true true false false true) data = Ok pxa /\
    write_cart64_to_rom 0 None fast (mkcart64 version [([109;97;105;110;46;108;117;97], Some data)]) = Ok lz /\
    In rom [data; pxa; lz] /\ Forall (fun other => zlen rom <= zlen other) [data; pxa; lz].
Proof.
  intros version fast data rom W. unfold write_cart64_to_tiny_rom in W. cbn [set] in W.
  destruct (write_cart64_to_rom 0 None fast _) as [lz|] eqn:El in W; [|discriminate W]. cbn [bind] in W.
  destruct (compress_code _ data) as [pxa|] eqn:Ep; [|discriminate W]. cbn [bind] in W. apply Ok_inj in W.
  exists pxa, lz. split; [easy|]. split; [exact El|].
  destruct (Z.ltb_spec (zlen pxa) (zlen data));
    [destruct (Z.ltb_spec (zlen lz) (zlen pxa))|destruct (Z.ltb_spec (zlen lz) (zlen data))]; subst rom;
    (split; [cbn; tauto|repeat (constructor; [lia|]); constructor]).
Qed.

(** C65: whichever of its three forms a tiny rom takes, it reads back as the program, if
    the program stored as it is is long enough and does not look like another form, and
    the compressor does not hit the error of C02. *)
Theorem C65_tiny_partial : forall version fast data its rom v,
  Forall (fun c => 0 < c < 256) data -> zlen data < 0x10000 -> 0 <= version < 256 ->
  new_items false data = Ok its -> Sorted Z.le (map fst its) ->
  write_cart64_to_tiny_rom version fast data = Ok rom ->
  (rom = data -> 3 <= zlen data /\ (forall t, data <> [112; 54; 52] ++ t) /\ (forall t, data <> [58; 99; 58; 0] ++ t)) ->
  exists v', read_cart64_from_rom v true rom = Ok (mkcart64 v' [([109;97;105;110;46;108;117;97], Some data)]).
Proof.
  intros version fast data its rom v Hd Ld Hv Ei Si W Raw.
  assert (Bd : bytes_ok data) by (eapply Forall_impl; [|exact Hd]; cbn; lia).
  unfold write_cart64_to_tiny_rom in W.
  assert (Sf : sound_files (c64_files (mkcart64 version (set [] main_lua (Some data))))).
  { cbn [c64_files set]. split; [repeat constructor; easy|]. constructor; [|constructor]. split.
    - repeat (constructor; [lia|]). constructor.
    - split; [|split; [exact Bd|lia]]. intros q E. change main_lua with ([109;97;105;110;46;108;117] ++ [97]) in E.
      apply app_inj_tail in E. easy. }
  destruct (rom_roundtrip (mkcart64 version (set [] main_lua (Some data))) fast Sf Hv) as (size & A & A' & B).
  destruct (write_cart64_to_rom 0 None fast _) as [lz|] eqn:El in W; [|discriminate W]. cbn [bind] in W.
  destruct (default_sorted true true true data its 0x7fffffffffffffff [] (or_intror eq_refl) Hd Ld (Forall_nil _) Ei Si) as (pxa & Bp & _ & Ep & Up).
  rewrite Ep in W. cbn [andb] in W. destruct (Z.leb_spec (zlen pxa) k_code_size) as [Lp|]; [|discriminate W]. cbn [negb bind] in W.
  injection W as W.
  assert (Hl : rom = lz /\ zlen lz < zlen data \/ rom = pxa \/ rom = data).
  { destruct (zlen pxa <? zlen data) eqn:Q1; destruct (zlen lz <? _) eqn:Q2 in W; subst rom; auto; left; (split; [easy|]);
      apply Z.ltb_lt in Q2; [apply Z.ltb_lt in Q1; lia|lia]. }
  assert (Isb : forallb is_byte data = true).
  { apply forallb_forall. intros x I. rewrite Forall_forall in Hd. specialize (Hd x I). unfold is_byte. lia. }
  destruct Hl as [(-> & Ll)|[->| ->]].
  - assert (No : ~ over None size) by (intros (l & E & _); discriminate E).
    destruct (Z.lt_ge_cases size 4294967304) as [Hs|Hs]; [|rewrite (A' Hs 0%nat None No) in El; discriminate El].
    destruct (B Hs) as (rom & E & _ & _ & R). rewrite (E 0%nat None No) in El. injection El as <-. cbn [repeat].
    exists version. apply (R v true []).
  - exists v. destruct (Up ltac:(unfold k_code_size in Lp; lia)) as (U & _). rewrite app_nil_r in U.
    assert (exists t, pxa = [0; 112; 120; 97] ++ t) as (t & ->).
    { unfold compress_code in Ep. cbn [o_force o_be o_fail o_old] in Ep. rewrite orb_true_r in Ep. cbn [andb] in Ep.
      destruct (Z.leb_spec (zlen pxa) k_code_size); [|lia]. cbn [negb] in Ep.
      do 4 (match type of Ep with bind ?m _ = _ => destruct m; [cbn [bind] in Ep|discriminate Ep] end).
      injection Ep as <-. eexists. reflexivity. }
    unfold read_cart64_from_rom. cbn [app M_Zbytes.r_bytes]. unfold M_Zbytes.r_bytes. cbn [firstn skipn length Nat.ltb Nat.leb andb negb bind].
    change (zeqb_list [0; 112; 120] k_rom_header_sig) with false. cbn iota. cbn [app] in U. rewrite U. cbn [bind].
    rewrite Isb. reflexivity.
  - exists v. destruct (Raw eq_refl) as (L3 & N1 & N2). unfold read_cart64_from_rom, M_Zbytes.r_bytes.
    destruct data as [|a [|b [|c data]]]; try (cbn in L3; lia). cbn [firstn skipn length Nat.ltb Nat.leb andb negb bind].
    destruct (zeqb_list [a; b; c] k_rom_header_sig) eqn:Q; [apply zeqb_list_true in Q; injection Q as -> -> ->; now destruct (N1 data)|].
    assert (N0 : Forall (fun c => c <> 0) (a :: b :: c :: data)) by (eapply Forall_impl; [|exact Hd]; cbn; lia).
    unfold uncompress_code. destruct (zeqb_list (firstn 4 _) new_header) eqn:Q1.
    { apply zeqb_list_true in Q1. cbn in Q1. injection Q1 as -> _. inversion Hd; lia. }
    destruct (zeqb_list (firstn 4 _) old_header) eqn:Q2.
    { apply zeqb_list_true in Q2. destruct (N2 (skipn 4 (a :: b :: c :: data))). rewrite <- (firstn_skipn 4 (a :: b :: c :: data)) at 1.
      now rewrite Q2. }
    assert (Z0 : forall mx, zlen (a :: b :: c :: data) <= mx -> zbytes mx (a :: b :: c :: data) = a :: b :: c :: data).
    { intros mx Lm. pose proof (zbytes_spec mx (a :: b :: c :: data) [] N0 Lm (or_introl eq_refl)) as Z1. now rewrite app_nil_r in Z1. }
    rewrite Z0 by lia. cbn [bind]. rewrite Isb. reflexivity.
Qed.

(** The conditions on a program stored as it is are needed: a program of three bytes, and
    one of two, that are written and cannot be read. *)
Theorem C65_tiny_refuted :
  (write_cart64_to_tiny_rom 0 false [112; 54; 52] = Ok [112; 54; 52] /\ forall v, read_cart64_from_rom v true [112; 54; 52] = Err EStruct) /\
  (write_cart64_to_tiny_rom 0 false [97; 61] = Ok [97; 61] /\ forall v, read_cart64_from_rom v true [97; 61] = Err EStruct).
Proof. split; (split; [vm_compute; reflexivity|intros v; reflexivity]). Qed.

(** a case: a program that is stored compressed *)
Example C65_case :
  let data := repeat 97 40 in
  exists its rom, new_items false data = Ok its /\ Sorted Z.le (map fst its) /\
    write_cart64_to_tiny_rom 0 false data = Ok rom /\ rom <> data /\ Forall (fun c => 0 < c < 256) data.
Proof.
  cbn zeta. eexists. eexists. split; [vm_compute; reflexivity|]. split; [cbn; repeat (constructor; try lia)|].
  split; [vm_compute; reflexivity|]. split; [discriminate|]. repeat (constructor; [lia|]). constructor.
Qed.

Print Assumptions C44_roundtrip.
Print Assumptions C14_bytes.
Print Assumptions C14_cart.
Print Assumptions C65_smallest.
Print Assumptions C65_tiny_partial.
Print Assumptions C65_tiny_refuted.
