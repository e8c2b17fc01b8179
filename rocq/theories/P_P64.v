(** C45: Picotron text carts. *)
From Coq Require Import Permutation.
From Verif Require Import M_Base L_Util M_Text S_Text L_Pre M_Url L_Url M_Files M_Cart64 L_Cart64 M_P64 S_P64 L_P64 P_Text.
Open Scope Z_scope.

(** C45: a cart of any number of files, whose paths fit on a line and whose contents are
    either written in base64 or plain, is read back with its version and files.
    Missing: contents that are neither, see below. *)
Theorem C45_roundtrip_partial : forall int10, decimal_reader int10 ->
  forall avoid_base64 cart version, text_files avoid_base64 (c64_files cart) -> 0 <= c64_version cart ->
  exists fs, read_cart64_from_source int10 version false (write_cart64_to_source avoid_base64 cart) = Ok (mkcart64 (c64_version cart) fs) /\
    Permutation (c64_files cart) fs /\ parents_first fs.
Proof.
  intros int10 H avoid cart version T V. eexists. split; [now apply p64_roundtrip|]. split; [apply sorted_by_perm|].
  now apply (sorted_parents_first avoid), T.
Qed.

(** a case: a program with a line that looks like a file header, one of two lines, and a directory *)
Example C45_case :
  let cart := mkcart64 7 [([97;46;98], Some [10;58;58;32;120]); ([109;97;105;110;46;108;117;97], Some [97;10;98;10]); ([97;47], None)] in
  text_files false (c64_files cart) /\
  read_cart64_from_source (ascii_int 10) 0 false (write_cart64_to_source false cart) =
    Ok (mkcart64 7 [([109;97;105;110;46;108;117;97], Some [97;10;98;10]); ([97;46;98], Some [10;58;58;32;120]); ([97;47], None)]).
Proof.
  cbn zeta. split; [|vm_compute; reflexivity].
  assert (K : forall q (x : Z) l, ~ x = 47 -> l ++ [x] <> q ++ [47]) by (intros q x l N E; apply app_inj_tail in E; easy).
  assert (J : forall x l y, ~ white x -> ~ white y -> ~ In 10 (x :: l ++ [y]) -> ~ In 13 (x :: l ++ [y]) -> x <> 91 -> line_path (x :: l ++ [y])).
  { intros x l y Hx Hy N10 N13 E. repeat apply conj; try easy; [now exists x, (l ++ [y])|now exists y, (x :: l)|congruence]. }
  split; [cbn; repeat constructor; cbn; intuition discriminate|]. constructor; [|constructor; [|constructor; [|constructor]]].
  - split; [apply (J 97 [46] 98); cbn; unfold white; lia|]. split; [intros q; apply (K q 98 [97;46]); lia|].
    split; [repeat (constructor; [lia|]); constructor|]. left. right. now exists [10], [120].
  - split; [apply (J 109 [97;105;110;46;108;117] 97); cbn; unfold white; lia|]. split; [intros q; apply (K q 97 [109;97;105;110;46;108;117]); lia|].
    split; [repeat (constructor; [lia|]); constructor|]. right. split; [cbn; lia|easy].
  - split; [apply (J 97 [] 47); cbn; unfold white; lia|]. now exists [97].
Qed.

(** Carriage returns are lost, so that a line behind one can even start a new file, and
    contents that begin with "b64$" are decoded. *)
Definition one_file (data : list Z) : cart64 := mkcart64 2 [([97], Some data)].
Theorem C45_refuted : forall avoid_base64,
  read_cart64_from_source (ascii_int 10) 0 false (write_cart64_to_source avoid_base64 (one_file [120;13;10;121])) = Ok (one_file [120;10;121]) /\
  read_cart64_from_source (ascii_int 10) 0 false (write_cart64_to_source avoid_base64 (one_file [120;13;58;58;32;122;13;121])) =
    Ok (mkcart64 2 [([97], Some [120]); ([122], Some [121])]) /\
  read_cart64_from_source (ascii_int 10) 0 false (write_cart64_to_source avoid_base64 (one_file [98;54;52;36;65;65;65;65])) = Ok (one_file [0;0;0]).
Proof. intros []; repeat split; vm_compute; reflexivity. Qed.

(** A raw source file: without carriage returns, and if it does not look like base64, it
    is read as the program; one newline at its end is dropped. *)
Lemma raw_lines d : forall cur, ~ In 13 d -> (forall d', d <> d' ++ [10]) -> (d <> [] \/ cur <> []) ->
  splitlines cur d = split_all 10 cur d.
Proof.
  induction d as [|c d IH]; intros cur N L H; cbn [splitlines split_all].
  - destruct cur; [now destruct H|easy].
  - assert (N' : ~ In 13 d) by firstorder. assert (L' : forall d', d <> d' ++ [10]) by (intros d' ->; now destruct (L (c :: d'))).
    destruct (Z.eqb_spec c 10) as [->|].
    + rewrite IH; [easy|easy|easy|]. left. intros ->. now destruct (L []).
    + destruct (Z.eqb_spec c 13) as [->|]; [now destruct N; left|]. apply IH; [easy|easy|now right].
Qed.
Theorem C45_raw : forall int10 version raw data,
  plain data -> raw = true \/ (forall t, data <> [112;105;99;111;116;114;111;110;32;99;97;114;116;114;105;100;103;101] ++ t) /\ (forall t, data <> [58;58;32] ++ t) ->
  exists data', (data = data' ++ [10] \/ data = data' /\ forall x, data <> x ++ [10]) /\
    read_cart64_from_source int10 version raw data = Ok (mkcart64 version [([109;97;105;110;46;108;117;97], Some data')]).
Proof.
  intros int10 version raw data (N & Nb) H.
  assert (E : raw || (negb (starts_with k_p64_prefix data) && negb (starts_with k_p64_file_prefix data)) = true).
  { destruct H as [->|(H1 & H2)]; [easy|]. rewrite !p64_starts_not by easy. apply orb_true_r. }
  unfold read_cart64_from_source. rewrite E. clear E H. cbn zeta iota.
  assert (B : forall ls acc st, p_fspath st = Some main_lua -> p_lines st = acc -> p_version st = version -> p_files st = [] ->
    p64_lines int10 true st ls = Ok (mkp64 (Some main_lua) (acc ++ ls) version [])).
  { clear. induction ls as [|l ls IH]; intros acc st E1 E2 E3 E4.
    - destruct st. cbn in *. subst. now rewrite app_nil_r.
    - cbn [p64_lines]. unfold p64_line. rewrite andb_false_r, E1. cbn [bind].
      rewrite (IH (acc ++ [l])); [now rewrite <- app_assoc|easy| |easy|easy]. cbn. now rewrite E2. }
  rewrite (B _ [] (mkp64 (Some main_lua) [] version []) eq_refl eq_refl eq_refl eq_refl). clear B. cbn [bind app].
  assert (S : exists data', (data = data' ++ [10] \/ data = data' /\ forall x, data <> x ++ [10]) /\ nl_join (splitlines [] data) = data').
  { destruct (rev_ind (fun r => r = [] \/ exists u c, r = u ++ [c]) (or_introl eq_refl)
      (fun x l _ => or_intror (ex_intro _ l (ex_intro _ x eq_refl))) data) as [->|(u & c & ->)].
    - exists []. split; [right; split; [easy|]; now intros []|easy].
    - destruct (Z.eq_dec c 10) as [->|Nc].
      + exists u. split; [now left|]. rewrite splitlines_app by (intros I; apply N, in_or_app; now left). cbn [splitlines].
        now rewrite app_nil_r, join_split.
      + exists (u ++ [c]). assert (Nl : forall x, u ++ [c] <> x ++ [10]) by (intros x E; apply app_inj_tail in E; easy).
        split; [now right|]. rewrite raw_lines; [apply join_split|easy|easy|]. left. now destruct u. }
  destruct S as (data' & D & J). exists data'. split; [exact D|]. unfold p64_flush. cbn [p_fspath p_lines p_files].
  change (match main_lua with [] => _ | _ => ?x end) with x. change (ends_with [47] main_lua) with false. cbn iota zeta. rewrite J.
  rewrite p64_starts_not; [reflexivity|]. intros t ->. destruct D as [->|(-> & _)]; [now apply (Nb (t ++ [10]))|now apply (Nb t)].
Qed.
Example C45_raw_case : plain [97;10;98;10] /\
  read_cart64_from_source (ascii_int 10) 3 false [97;10;98;10] = Ok (mkcart64 3 [([109;97;105;110;46;108;117;97], Some [97;10;98])]).
Proof. split; [split; [cbn; lia|easy]|vm_compute; reflexivity]. Qed.

Print Assumptions C45_roundtrip_partial.
Print Assumptions C45_refuted.
Print Assumptions C45_raw.
