(** Properties C17-C20 and C61-C63: the .p8 text format. *)
From Verif Require Import M_Base L_Util M_Memory L_Memory M_Charset M_Fold S_Fold M_Rom S_Rom L_Image M_Text S_Num S_Text L_Text L_TextRead L_TextFile.
Open Scope Z_scope.
Local Opaque mem_create_rom.

Lemma block_ext : forall a b s n, zlen a = zlen b -> (forall i, s <= i < s + n -> mget a i = mget b i) -> 0 <= s -> 0 <= n -> get_block a s n = get_block b s n.
Proof.
  intros a b s n L H Hs Hn. unfold get_block, slice. unfold zlen in L. apply (list_ext 0).
  - rewrite !firstn_length, !skipn_length. lia.
  - intros i Hi. rewrite firstn_length, skipn_length in Hi. rewrite !nth_firstn by lia. rewrite !nth_skipn.
    specialize (H (s + Z.of_nat i) ltac:(lia)). unfold mget in H. replace (Z.to_nat (s + Z.of_nat i)) with (Z.to_nat s + i)%nat in H by lia. exact H.
Qed.
Lemma rom_ext : forall a b, zlen a = zlen b -> (forall i, 0 <= i < zlen a -> mget a i = mget b i) -> a = b.
Proof.
  intros a b L H. apply (list_ext 0); [unfold zlen in L; lia|]. intros i Hi. specialize (H (Z.of_nat i)). unfold mget, zlen in H. rewrite Nat2Z.id in H. apply H. lia.
Qed.

Section Any.
Context (int16 int10 : list Z -> option Z) (lower : Z -> list Z).
Context (H16 : hex_reader int16) (H10 : decimal_reader int10) (Hlow : ascii_lower lower).
Notation read := (read_cart_from_source int16 int10 lower).

(** C61.  A cart written as a .p8 text file is read back as the same cart: memory, code,
    label (a black one as none), further sections and version.  The code goes through the
    preprocessor as it is, with the number of the line it starts at. *)
Theorem C61_p8_text : forall unicaps c, text_cart_ok c ->
  exists text, write_cart_to_source unicaps None c = Ok text /\
    forall preprocess, read preprocess false text =
      (code <- preprocess (c_code c) 3 ;;
       Ok (mkcart (c_version_id c) (get_pico8_version_tuple (c_version_id c)) 108 false true (c_rom c) code None (shown (c_label c)) (c_meta c))).
Proof.
  intros u c (B & L & Bc & Pc & Hl & Hm & Hv). destruct default_rom_ok as (d & Hd & Bd & Ld).
  assert (F : filter (fun '(k, _) => included None (str_meta ++ k)) (c_meta c) = c_meta c).
  { induction (c_meta c) as [|[k v] m IH]; [reflexivity|]. cbn [filter included]. f_equal. apply IH. clear - Hm. destruct Hm as [N F].
    cbn [map] in N. inversion_clear N. inversion_clear F. split; assumption. }
  destruct (write_read int16 int10 lower H16 H10 Hlow u None c d) as (text & rom' & W & R & L' & B' & E); try assumption; auto.
  { rewrite F. exact Hm. }
  exists text. split; [exact W|]. intros preprocess. rewrite R, F. cbn [included].
  replace rom' with (c_rom c); [reflexivity|]. symmetry. apply rom_ext; [congruence|]. intros i Hi. rewrite E by lia.
  replace (existsb _ _) with true; [reflexivity|]. symmetry. cbn [existsb included]. rewrite !andb_true_r, orb_false_r.
  unfold in_section.
    change (zeqb_list str_gfx str_gfx) with true. change (zeqb_list str_map str_gfx) with false. change (zeqb_list str_map str_map) with true.
    change (zeqb_list str_gff str_gfx) with false. change (zeqb_list str_gff str_map) with false. change (zeqb_list str_gff str_gff) with true.
    change (zeqb_list str_sfx str_gfx) with false. change (zeqb_list str_sfx str_map) with false. change (zeqb_list str_sfx str_gff) with false.
    change (zeqb_list str_sfx str_music) with false. change (zeqb_list str_sfx str_sfx) with true.
    change (zeqb_list str_music str_gfx) with false. change (zeqb_list str_music str_map) with false. change (zeqb_list str_music str_gff) with false.
    change (zeqb_list str_music str_music) with true. cbv iota. lia.
Qed.

(** C62.  Only the requested sections are written: whatever else the cart holds, reading
    the file gives these and defaults for the rest. *)
Theorem C62_p8_sections : forall unicaps names c,
  bytes_ok (c_rom c) -> zlen (c_rom c) = 0x4300 -> 0 <= c_version_id c ->
  (In str_lua names -> bytes_ok (c_code c) /\ plain_code (c_code c)) ->
  (In str_label names -> match c_label c with Some l => label_ok 32 l | None => True end) ->
  plain_meta (requested names (c_meta c)) ->
  exists text d c', write_cart_to_source unicaps (Some names) c = Ok text /\ read as_is false text = Ok c' /\ mem_create_rom = Ok d /\
    (In str_lua names -> c_code c' = c_code c) /\ (~ In str_lua names -> c_code c' = []) /\
    (In str_label names -> c_label c' = shown (c_label c)) /\ (~ In str_label names -> c_label c' = None) /\
    c_meta c' = requested names (c_meta c) /\
    forall i, 0 <= i < 0x4300 ->
      ((exists s, In s names /\ in_section s i = true) -> mget (c_rom c') i = mget (c_rom c) i) /\
      (~ (exists s, In s names /\ in_section s i = true) -> mget (c_rom c') i = mget d i).
Proof.
  intros u names c B L Hv Hc Hl Hm. destruct default_rom_ok as (d & Hd & Bd & Ld).
  assert (I : forall s, included (Some names) s = true <-> In s names).
  { intros s. cbn [included]. rewrite existsb_exists. split.
    - intros (x & Hx & E). apply zeqb_list_true in E. subst. exact Hx.
    - intros Hx. exists s. split; [exact Hx|apply zeqb_list_refl]. }
  assert (I' : forall s, ~ In s names -> included (Some names) s = false).
  { intros s N. destruct (included (Some names) s) eqn:E; [|reflexivity]. exfalso. apply N, I. exact E. }
  destruct (write_read int16 int10 lower H16 H10 Hlow u (Some names) c d) as (text & rom' & W & R & L' & B' & E); try assumption.
  { intros X. apply Hc, I, X. } { intros X. apply Hl, I, X. }
  exists text, d. eexists. split; [exact W|]. split; [rewrite R; unfold as_is; cbn [bind]; reflexivity|]. split; [exact Hd|].
  cbn [c_code c_label c_meta c_rom]. repeat apply conj.
  - intros X. apply I in X. rewrite X. reflexivity.
  - intros X. apply I' in X. rewrite X. reflexivity.
  - intros X. apply I in X. rewrite X. reflexivity.
  - intros X. apply I' in X. rewrite X. reflexivity.
  - reflexivity.
  - intros i Hi. rewrite E by exact Hi. destruct (existsb _ _) eqn:X; split; intros Y; try reflexivity.
    + exfalso. apply Y. apply existsb_exists in X as (s & _ & S). apply andb_prop in S as [S1 S2]. exists s. split; [apply I; exact S2|exact S1].
    + exfalso. destruct Y as (s & S1 & S2). assert (T : existsb (fun s => in_section s i && included (Some names) s) [str_gfx; str_map; str_gff; str_sfx; str_music] = true).
      { apply existsb_exists. exists s. split; [|rewrite S2; apply I; exact S1]. unfold in_section in S2.
        destruct (zeqb_list s str_gfx) eqn:E1; [apply zeqb_list_true in E1; subst; cbn; tauto|].
        destruct (zeqb_list s str_map) eqn:E2; [apply zeqb_list_true in E2; subst; cbn; tauto|].
        destruct (zeqb_list s str_gff) eqn:E3; [apply zeqb_list_true in E3; subst; cbn; tauto|].
        destruct (zeqb_list s str_music) eqn:E4; [apply zeqb_list_true in E4; subst; cbn; tauto|].
        destruct (zeqb_list s str_sfx) eqn:E5; [apply zeqb_list_true in E5; subst; cbn; tauto|discriminate S2]. }
      rewrite T in X. discriminate X.
Qed.

(** C17.  Graphics, map and flags of any memory; nothing is asked of the rest of the cart. *)
Theorem C17_graphics : forall unicaps c, bytes_ok (c_rom c) -> zlen (c_rom c) = 0x4300 -> 0 <= c_version_id c ->
  exists text c', write_cart_to_source unicaps (Some [str_gfx; str_map; str_gff]) c = Ok text /\ read as_is false text = Ok c' /\
    get_block (c_rom c') 0 0x3100 = get_block (c_rom c) 0 0x3100.
Proof.
  intros u c B L Hv. destruct default_rom_ok as (d & Hd & Bd & Ld).
  assert (F : filter (fun '(k, _) => included (Some [str_gfx; str_map; str_gff]) (str_meta ++ k)) (c_meta c) = []).
  { induction (c_meta c) as [|[k v] m IH]; [reflexivity|]. cbn [filter]. change (included (Some [str_gfx; str_map; str_gff]) (str_meta ++ k)) with false. exact IH. }
  destruct (write_read int16 int10 lower H16 H10 Hlow u (Some [str_gfx; str_map; str_gff]) c d) as (text & rom' & W & R & L' & B' & E); try assumption.
  { intros X. discriminate X. } { intros X. discriminate X. } { rewrite F. split; constructor. }
  exists text. eexists. split; [exact W|]. split; [rewrite R; unfold as_is; cbn [bind]; reflexivity|]. cbn [c_rom].
  apply block_ext; try lia. intros i Hi. rewrite E by lia. destruct (existsb _ _) eqn:X; [reflexivity|]. exfalso.
  cbn [existsb] in X. change (included _ str_gfx) with true in X. change (included _ str_map) with true in X. change (included _ str_gff) with true in X.
  rewrite !andb_true_r in X. unfold in_section in X.
  change (zeqb_list str_gfx str_gfx) with true in X. change (zeqb_list str_map str_gfx) with false in X. change (zeqb_list str_map str_map) with true in X.
  change (zeqb_list str_gff str_gfx) with false in X. change (zeqb_list str_gff str_map) with false in X. change (zeqb_list str_gff str_gff) with true in X.
  cbv iota in X. apply orb_false_elim in X as [X1 X]. apply orb_false_elim in X as [X2 X]. apply orb_false_elim in X as [X3 X]. lia.
Qed.

(** C18.  Sound effects and music of any memory. *)
Theorem C18_sound : forall unicaps c, bytes_ok (c_rom c) -> zlen (c_rom c) = 0x4300 -> 0 <= c_version_id c ->
  exists text c', write_cart_to_source unicaps (Some [str_sfx; str_music]) c = Ok text /\ read as_is false text = Ok c' /\
    get_block (c_rom c') 0x3100 0x1200 = get_block (c_rom c) 0x3100 0x1200.
Proof.
  intros u c B L Hv. destruct default_rom_ok as (d & Hd & Bd & Ld).
  assert (F : filter (fun '(k, _) => included (Some [str_sfx; str_music]) (str_meta ++ k)) (c_meta c) = []).
  { induction (c_meta c) as [|[k v] m IH]; [reflexivity|]. cbn [filter]. change (included (Some [str_sfx; str_music]) (str_meta ++ k)) with false. exact IH. }
  destruct (write_read int16 int10 lower H16 H10 Hlow u (Some [str_sfx; str_music]) c d) as (text & rom' & W & R & L' & B' & E); try assumption.
  { intros X. discriminate X. } { intros X. discriminate X. } { rewrite F. split; constructor. }
  exists text. eexists. split; [exact W|]. split; [rewrite R; unfold as_is; cbn [bind]; reflexivity|]. cbn [c_rom].
  apply block_ext; try lia. intros i Hi. rewrite E by lia. destruct (existsb _ _) eqn:X; [reflexivity|]. exfalso.
  cbn [existsb] in X. change (included _ str_sfx) with true in X. change (included _ str_music) with true in X.
  rewrite !andb_true_r in X. unfold in_section in X.
  change (zeqb_list str_sfx str_gfx) with false in X. change (zeqb_list str_sfx str_map) with false in X. change (zeqb_list str_sfx str_gff) with false in X.
  change (zeqb_list str_sfx str_music) with false in X. change (zeqb_list str_sfx str_sfx) with true in X.
  change (zeqb_list str_music str_gfx) with false in X. change (zeqb_list str_music str_map) with false in X. change (zeqb_list str_music str_gff) with false in X.
  change (zeqb_list str_music str_music) with true in X.
  cbv iota in X. apply orb_false_elim in X as [_ X]. apply orb_false_elim in X as [_ X]. apply orb_false_elim in X as [_ X].
  apply orb_false_elim in X as [X1 X]. apply orb_false_elim in X as [X2 _]. lia.
Qed.

(** C19.  The label, in a file with or without other sections. *)
Theorem C19_label : forall unicaps c, text_cart_ok c ->
  exists text c', write_cart_to_source unicaps None c = Ok text /\ read as_is false text = Ok c' /\
    (forall l, c_label c = Some l -> (exists y x, nth x (nth y l []) 0 <> 0) -> c_label c' = Some l) /\
    (forall l, c_label c = Some l -> (forall y x, nth x (nth y l []) 0 = 0) -> c_label c' = None) /\
    (c_label c = None -> c_label c' = None).
Proof.
  intros u c H. destruct (C61_p8_text u c H) as (text & W & R). exists text. eexists. split; [exact W|].
  split; [rewrite R; unfold as_is; cbn [bind]; reflexivity|]. cbn [c_label].
  split; [|split].
  - intros l E (y & x & N). rewrite E. unfold shown. replace (existsb _ _) with true; [reflexivity|]. symmetry. apply existsb_exists.
    exists (nth x (nth y l []) 0). split; [|lia]. apply in_concat. exists (nth y l []).
    destruct (Nat.lt_ge_cases y (length l)) as [Hy|Hy]; [|rewrite (nth_overflow l) in N by exact Hy; destruct x; contradiction].
    split; [apply nth_In; exact Hy|]. apply nth_In. destruct (Nat.lt_ge_cases x (length (nth y l []))) as [Hx|Hx]; [exact Hx|].
    rewrite nth_overflow in N by exact Hx. contradiction.
  - intros l E Z. rewrite E. unfold shown. replace (existsb _ _) with false; [reflexivity|]. symmetry.
    destruct (existsb _ _) eqn:X; [|reflexivity]. apply existsb_exists in X as (v & Hv & N). apply in_concat in Hv as (r & Hr & Hv).
    destruct (In_nth l r [] Hr) as (y & _ & Y). destruct (In_nth r v 0 Hv) as (x & _ & X). specialize (Z y x). rewrite Y, X in Z. lia.
  - intros ->. reflexivity.
Qed.

(** C20.  Code without odd lines is read back as it was. *)
Theorem C20_code : forall unicaps c, text_cart_ok c ->
  exists text c', write_cart_to_source unicaps None c = Ok text /\ read as_is false text = Ok c' /\ c_code c' = c_code c.
Proof.
  intros u c H. destruct (C61_p8_text u c H) as (text & W & R). exists text. eexists. split; [exact W|].
  split; [rewrite R; unfold as_is; cbn [bind]; reflexivity|]. reflexivity.
Qed.

(** C63.  Code written as raw source is read back as it was, but for one newline at its end. *)
Theorem C63_raw_source : forall unicaps c, bytes_ok (c_code c) -> (forall l r, is_line (c_code c) l -> l <> r ++ [13]) ->
  exists text code c', write_cart_to_raw_source false unicaps c = Ok text /\
    (c_code c = code ++ [10] \/ c_code c = code /\ forall r, code <> r ++ [10]) /\
    read as_is true text = Ok c' /\ c_code c' = code.
Proof.
  intros u c B P. destruct default_rom_ok as (d & Hd & Bd & Ld).
  destruct (raw_reads int16 int10 lower u c d B P Hd) as (text & code & W & S & R). exists text, code. eexists. split; [exact W|]. split; [exact S|].
  split; [rewrite R; unfold as_is; cbn [bind]; reflexivity|]. reflexivity.
Qed.
End Any.
Print Assumptions C61_p8_text.
Print Assumptions C62_p8_sections.
Print Assumptions C17_graphics.
Print Assumptions C18_sound.
Print Assumptions C19_label.
Print Assumptions C20_code.
Print Assumptions C63_raw_source.

(** Readers of plain ASCII satisfy the assumptions. *)
Definition ascii_int (base : Z) (s : list Z) : option Z :=
  if negb (zeqb_list s []) && forallb (fun c => ((48 <=? c) && (c <=? 57) || (97 <=? c) && (c <=? 102)) && (digit_value c <? base)) s
  then Some (digits_value base 0 s) else None.
Definition ascii_low (c : Z) : list Z := [if (65 <=? c) && (c <=? 90) then c + 32 else c].
Lemma ascii_hex_reader : hex_reader (ascii_int 16).
Proof.
  intros s N F. unfold ascii_int. rewrite nonempty_eqb by exact N. replace (forallb _ _) with true; [reflexivity|]. symmetry. apply forallb_forall.
  intros c Hc. destruct (proj1 (Forall_forall _ _) F c Hc). lia.
Qed.
Lemma ascii_decimal_reader : decimal_reader (ascii_int 10).
Proof.
  intros s v (N & F & V & _). unfold ascii_int. rewrite nonempty_eqb by exact N. replace (forallb _ _) with true.
  - cbn [andb]. f_equal. rewrite <- V. generalize 0. clear N V. induction F as [|c s Hc _ IH]; intros a; [reflexivity|]. cbn [digits_value horner].
    rewrite IH. f_equal. unfold digit_value. replace (c <? 58) with true by lia. reflexivity.
  - symmetry. apply forallb_forall. intros c Hc. pose proof (proj1 (Forall_forall _ _) F c Hc) as H. cbn in H. unfold digit_value.
    replace (c <? 58) with true by lia. lia.
Qed.
Lemma ascii_lower_ok : ascii_lower ascii_low.
Proof. intros c H. reflexivity. Qed.

(** Code without underscores and carriage returns is plain. *)
Lemma line_chars : forall code l c, is_line code l -> In c l -> In c code \/ c = 10.
Proof.
  intros code l c ((x & y & E) & _) H. assert (I : In c (10 :: code ++ [10])) by (rewrite E; apply in_or_app; right; right; apply in_or_app; left; exact H).
  destruct I as [I|I]; [right; congruence|]. apply in_app_or in I as [I|[I|[]]]; [left; exact I|right; congruence].
Qed.
Lemma plain_simple : forall code, ~ In 95 code -> ~ In 13 code -> plain_code code.
Proof.
  intros code N1 N2 l L. split.
  - intros ((r & E) & _). destruct (line_chars code l 95 L) as [I|I]; [rewrite E; left; reflexivity|contradiction|discriminate I].
  - intros r E. destruct (line_chars code l 13 L) as [I|I]; [rewrite E; apply in_or_app; right; left; reflexivity|contradiction|discriminate I].
Qed.

(** "x=1\nprint(x)\n", a memory of no default values, a label and a further section
    ("meta:a" with lines "b" and ""). *)
Definition sample_rom : list Z := map (fun i => Z.of_nat i * 7 mod 251) (seq 0 (Z.to_nat 0x4300)).
Definition sample_label : list (list Z) := repeat (map (fun i => Z.of_nat i mod 32) (seq 0 128)) 128.
Definition sample_cart : cart :=
  mkcart 42 (0, 2, 6, 0) 119 false false sample_rom [120; 61; 49; 10; 112; 114; 105; 110; 116; 40; 120; 41; 10] None (Some sample_label) [([97], [[98]; []])].
Example C61_case : text_cart_ok sample_cart /\ exists y x, nth x (nth y sample_label []) 0 <> 0.
Proof.
  split.
  - unfold text_cart_ok, sample_cart. cbn [c_rom c_code c_label c_meta c_version_id]. repeat apply conj; try lia.
    + apply Forall_forall. intros v Hv. unfold sample_rom in Hv. apply in_map_iff in Hv as (i & <- & _). pose proof (Z.mod_pos_bound (Z.of_nat i * 7) 251 ltac:(lia)). lia.
    + unfold zlen, sample_rom. rewrite map_length, seq_length. lia.
    + repeat (apply Forall_cons; [lia|]). constructor.
    + apply plain_simple; cbn; intuition discriminate.
    + reflexivity.
    + apply Forall_forall. intros r Hr. apply repeat_spec in Hr. subst r. split; [reflexivity|].
      apply Forall_forall. intros v Hv. apply in_map_iff in Hv as (i & <- & _). apply Z.mod_pos_bound. lia.
    + constructor; [intros []|constructor].
    + apply Forall_cons; [|constructor]. split; [cbn; intuition discriminate|]. split; [discriminate|].
      apply Forall_cons; [|apply Forall_cons; [|constructor]]; (split; [cbn; intuition discriminate|]); split.
      * intros ((r & E) & _). discriminate E.
      * intros r E. destruct r as [|? [|? ?]]; discriminate E.
      * intros ((r & E) & _). discriminate E.
      * intros r E. destruct r; discriminate E.
  - exists 0%nat, 1%nat. intros E. vm_compute in E. discriminate E.
Qed.

(** Outside [plain_code] the code changes: a carriage return before a newline is lost, and
    code from a line like "__a__" on is taken for another section. *)
Definition code_cart (code : list Z) : cart := mkcart 42 (0, 2, 6, 0) 119 false false sample_rom code None None [].
Definition read_back (code : list Z) : res (list Z) :=
  t <- write_cart_to_source false (Some [str_lua]) (code_cart code) ;;
  c <- read_cart_from_source (ascii_int 16) (ascii_int 10) ascii_low as_is false t ;; Ok (c_code c).
Theorem C20_crlf_refuted : read_back [97; 13; 10; 98] = Ok [97; 10; 98].
Proof. vm_compute. reflexivity. Qed.
Theorem C20_header_refuted : read_back [97; 10; 95; 95; 97; 95; 95; 10; 98] = Ok [97].
Proof. vm_compute. reflexivity. Qed.
Print Assumptions C20_crlf_refuted.
Print Assumptions C20_header_refuted.
