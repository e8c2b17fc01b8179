(** C87, C88: carts as files, read in the format named or in the one their contents show. *)
From Coq Require Import String Permutation.
From Verif Require Import M_Base L_Util M_Memory L_Memory M_Charset M_Fold S_Fold M_Compress M_Rom S_Rom L_Rom L_Image M_Text S_Num S_Text L_Text L_TextRead L_TextFile P_Text.
From Verif Require Import P_Rom M_Url S_Url L_Url P_Url M_Expr M_Pod L_Luastr M_Files M_Cart64 S_Cart64 M_P64 S_P64 P_Cart64 P_P64 M_Auto S_Auto L_Auto.
Open Scope Z_scope.
Local Opaque mem_create_rom.

Section Any.
Context (int16 int10 : list Z -> option Z) (lower : Z -> list Z).
Context (H16 : hex_reader int16) (H10 : decimal_reader int10) (Hlow : ascii_lower lower).
Context (enc : list px -> list Z) (dec : list Z -> res (list px)) (sha : list Z -> list Z) (template : list px).
Notation read := (fun pre keep => read_cart int16 int10 lower pre dec sha keep).
Notation write := (write_cart enc sha template).

(** A .p8 file is read as the cart it was written from (C61), whether its format is named or not; if it is named, the cart must have no
    carriage returns. *)
Theorem C87_p8 : forall keep unicaps trailer o c, text_cart_ok c -> meta_chars scalar c ->
  exists data, write keep unicaps trailer o P8 c = Ok data /\
    forall f, f = None \/ f = Some P8 /\ ~ In 13 (c_code c) /\ meta_chars (fun ch => ch <> 13) c ->
    forall preprocess keep', read preprocess keep' f data =
      (code <- preprocess (c_code c) 3 ;;
       Ok (mkcart (c_version_id c) (get_pico8_version_tuple (c_version_id c)) 108 false true (c_rom c) code None (shown (c_label c)) (c_meta c))).
Proof.
  intros keep u tr o c T M. destruct (C61_p8_text int16 int10 lower H16 H10 Hlow u c T) as (text & W & R). destruct T as (B & _ & Bc & _ & Hl & _ & Hv).
  assert (S : Forall scalar text).
  { apply (source_Q scalar) with (u := u) (c := c); try assumption; try (intros; unfold scalar; lia). now apply image_scalar. }
  destruct (text_round text S) as (data & E & D & Np). exists data. cbn [write_cart]. rewrite W. cbn [bind]. split; [exact E|].
  assert (P : starts_with str_prefix text = true).
  { clear R E D. unfold write_cart_to_source in W. destruct mem_create_rom; [|discriminate W]. cbn [bind included] in W. rewrite from_image in W by exact Bc. cbn [bind] in W.
    repeat match type of W with context [section_lines ?a ?b ?c ?d] => destruct (section_lines a b c d); [|discriminate W]; cbn [bind] in W end.
    apply Ok_inj in W. subst text. unfold join_nl. cbn [app map concat]. rewrite <- !app_assoc. apply starts_with_iff. eexists. reflexivity. }
  intros f [->|(-> & N & Nm)] pre keep'; cbn [read_cart].
  - unfold read_cart_autodetect. rewrite not_png by exact Np. cbn zeta. rewrite D, P. cbn [orb]. apply R.
  - unfold maybe_text. rewrite D, universal_id; [apply R|]. intros I.
    assert (F : Forall (fun ch => ch <> 13) text).
    { apply (source_Q (fun ch => ch <> 13)) with (u := u) (c := c); try assumption; try (intros; lia). pose proof (image_no_cr u _ Bc N) as K. apply Forall_forall. intros x Ix ->. contradiction. }
    rewrite Forall_forall in F. exact (F 13 I eq_refl).
Qed.

(** A file with the code alone is read as the code, but for one newline at its end (C63), unless it begins like another format and the
    format is not named, or there are carriage returns and it is named. *)
Theorem C87_lua : forall keep unicaps trailer o c, bytes_ok (c_code c) -> (forall l r, is_line (c_code c) l -> l <> r ++ [13]) ->
  exists data code d, write keep unicaps trailer o LuaF c = Ok data /\ (c_code c = code ++ [10] \/ c_code c = code /\ forall r, code <> r ++ [10]) /\
    mem_create_rom = Ok d /\
    forall f, f = None /\ ~ other_format (c_code c) \/ f = Some LuaF /\ ~ In 13 (c_code c) ->
    forall preprocess keep', read preprocess keep' f data = (code' <- preprocess code 0 ;; Ok (with_code (new_cart d) code' None)).
Proof.
  intros keep u tr o c B P. destruct default_rom_ok as (d & Hd & _). destruct (raw_reads int16 int10 lower u c d B P Hd) as (text & code & W & S & R).
  assert (T : text = image u (c_code c)) by (unfold write_cart_to_raw_source in W; rewrite from_image in W by exact B; cbn [bind] in W; now apply Ok_inj in W).
  destruct (text_round text) as (data & E & D & Np); [rewrite T; now apply image_scalar|].
  exists data, code, d. cbn [write_cart]. rewrite W. cbn [bind]. split; [exact E|]. split; [exact S|]. split; [exact Hd|].
  intros f [(-> & N)|(-> & N)] pre keep'; cbn [read_cart].
  - unfold read_cart_autodetect. rewrite not_png by exact Np. cbn zeta. rewrite D.
    assert (K : forall p, In p ["pico-8 cartridge"; "__lua__"; "[cart]"; "https://www.pico-8-edu.com"]%string -> starts_with (asc p) text = false).
    { intros p I. destruct (starts_with (asc p) text) eqn:Q; [|reflexivity]. destruct N. rewrite T in Q. apply image_prefix in Q as (t & Q); [exists p, t; now split|exact B|].
      destruct I as [<-|[<-|[<-|[<-|[]]]]]; cbn; repeat (constructor; [lia|]); constructor. }
    change str_prefix with (asc "pico-8 cartridge"). change (header_line str_lua) with (asc "__lua__"). change k_clip_prefix with (asc "[cart]"). unfold k_url_prefix.
    rewrite !K by (cbn; tauto). cbn [orb]. apply R.
  - unfold maybe_text. rewrite D, universal_id; [apply R|]. rewrite T. now apply image_no_cr.
Qed.

(** Pictures and clipboard texts are read as the picture (C13), whether their format is named or not, if the PNG coder does its work. *)
Theorem C87_png : forall keep unicaps trailer o c img, write_cart_to_image sha keep o template c = Ok img ->
  (exists t, enc img = [137; 80; 78; 71; 13; 10; 26; 10] ++ t) -> dec (enc img) = Ok img ->
  exists data, write keep unicaps trailer o Png c = Ok data /\
    forall f, f = None \/ f = Some Png -> forall preprocess keep', read preprocess keep' f data = read_cart_from_image sha keep' img.
Proof.
  intros keep u tr o c img E (t & H) D. exists (enc img). cbn [write_cart]. rewrite E. split; [reflexivity|]. intros f [->| ->] pre keep'; cbn [read_cart].
  - unfold read_cart_autodetect. replace (starts_with k_png_header (enc img)) with true by (symmetry; apply starts_with_iff; exists t; exact H). now rewrite D.
  - now rewrite D.
Qed.
Theorem C87_clip : forall keep unicaps trailer o c img, write_cart_to_image sha keep o template c = Ok img ->
  bytes_ok (enc img) -> dec (enc img) = Ok img ->
  exists data, write keep unicaps trailer o Clip c = Ok data /\
    forall f, f = None \/ f = Some Clip -> forall preprocess keep', read preprocess keep' f data = read_cart_from_image sha keep' img.
Proof.
  intros keep u tr o c img E B D. pose proof (clip_vis (enc img) B) as V. destruct (text_round _ (vis_scalar _ V)) as (data & W & Dd & Np). exists data.
  cbn [write_cart]. unfold write_cart_to_clip. rewrite E. cbn [bind]. split; [exact W|].
  assert (R : forall keep', read_cart_from_clip dec sha keep' (rstrip (write_raw_to_clip (enc img))) = read_cart_from_image sha keep' img).
  { intros keep'. rewrite vis_rstrip by exact V. unfold read_cart_from_clip. rewrite (clip_roundtrip _ B). cbn [bind]. now rewrite D. }
  intros f [->| ->] pre keep'; cbn [read_cart].
  - unfold read_cart_autodetect. rewrite not_png by exact Np. cbn zeta. rewrite Dd. cbn [write_raw_to_clip k_clip_prefix app]. apply R.
  - rewrite (scalar_text data _ Dd (vis_scalar _ V) (vis_no_cr _ V)). cbn [bind]. apply R.
Qed.

(** URL carts: the code and the sprites (C21). *)
Theorem C87_url : forall unicaps trailer o c data, cart_ok c -> o_fail o = true -> o_be o = true ->
  parse_ordered (force_copts o) (c_code c) -> c_code c <> [58; 99; 58] -> write false unicaps trailer o Url c = Ok data ->
  forall f, f = None \/ f = Some Url -> forall preprocess keep', exists c', read preprocess keep' f data = Ok c' /\ c_code c' = c_code c /\ zlen (c_rom c') = 0x4300 /\
    forall j, 0 <= j < 0x2000 -> byte_at (c_rom c') j = byte_at (c_rom c) j.
Proof.
  intros u tr o c data Ok1 Hf Hb P NM W f F pre keep'. cbn [write_cart] in W. destruct (write_cart_to_url k_url_prefix false o c) as [url|] eqn:Eu; [|discriminate W]. cbn [bind] in W.
  destruct (C21_url_partial k_url_prefix keep' o c url Ok1 Hf Hb P NM) as (c' & R & Q); [cbn; repeat (constructor; [discriminate|]); constructor|exact Eu|].
  destruct default_rom_ok as (m0 & M & _). destruct (gfx_roundtrip (c_rom c) m0 (proj1 Ok1) (proj1 (proj2 Ok1)) M) as (gfx & m' & Eg & _).
  destruct (write_url_inv k_url_prefix o c url gfx Eg Eu) as (raw & Er & -> & Hlen). destruct (tiny_padded o c raw Ok1 Hf Hb P NM Er (url_text_short _ _ _ Hlen)) as (BR & _).
  assert (V : Forall vis (url_text k_url_prefix (b64_encode raw) gfx)).
  { unfold url_text. repeat (apply Forall_app; split); try (cbn; repeat (constructor; [unfold vis; lia|]); constructor); [now apply b64_vis|].
    pose proof (write_gfx_vis _ _ (proj1 Ok1) Eg) as G. destruct gfx; [constructor|]. apply Forall_app. split; [repeat (constructor; [unfold vis; lia|]); constructor|exact G]. }
  destruct (text_round _ (vis_scalar _ V)) as (data' & W' & D & Np). assert (data' = data) by congruence. subst data'. exists c'. split; [|exact Q]. destruct F as [->| ->]; cbn [read_cart].
  - unfold read_cart_autodetect. rewrite not_png by exact Np. cbn zeta. rewrite D, vis_rstrip by exact V.
    replace (starts_with k_url_prefix (url_text k_url_prefix (b64_encode raw) gfx)) with true by (symmetry; apply starts_with_iff; eexists; reflexivity). exact R.
  - rewrite (scalar_text data _ D (vis_scalar _ V) (vis_no_cr _ V)). cbn [bind]. rewrite vis_rstrip by exact V. exact R.
Qed.
(** The format "code" has the code under a header: it is read as such if the format is not named as well, and no code is taken for another
    format. No line may look like a header. *)
Theorem C87_code : forall keep unicaps trailer o c, bytes_ok (c_code c) -> plain_code (c_code c) ->
  exists data code d, write keep unicaps trailer o CodeF c = Ok data /\ (c_code c = code ++ [10] \/ c_code c = code /\ forall r, code <> r ++ [10]) /\
    mem_create_rom = Ok d /\
    forall f, f = None \/ f = Some CodeF /\ ~ In 13 (c_code c) ->
    forall preprocess keep', read preprocess keep' f data =
      (code' <- preprocess code (match c_code c with [] => 0 | _ => 1 end) ;; Ok (with_code (new_cart d) code' None)).
Proof.
  intros keep u tr o c B P. destruct default_rom_ok as (d & Hd & _). destruct (code_reads int16 int10 lower u c d B P Hd) as (code & W & S & R).
  set (text := header_line str_lua ++ [10] ++ image u (c_code c)) in *.
  destruct (text_round text) as (data & E & D & Np).
  { unfold text. rewrite !Forall_app. split; [|split; [|now apply image_scalar]]; cbn; repeat (constructor; [unfold scalar; lia|]); constructor. }
  exists data, code, d. cbn [write_cart]. rewrite W. cbn [bind]. split; [exact E|]. split; [exact S|]. split; [exact Hd|].
  intros f [->|(-> & N)] pre keep'; cbn [read_cart].
  - unfold read_cart_autodetect. rewrite not_png by exact Np. cbn zeta. rewrite D.
    replace (starts_with (header_line str_lua) text) with true by (symmetry; apply starts_with_iff; eexists; reflexivity). rewrite orb_true_r. apply R.
  - unfold maybe_text. rewrite D, universal_id; [apply R|]. unfold text. rewrite !in_app_iff. intros [K|[K|K]]; [cbn in K; lia|cbn in K; lia|]. now apply image_no_cr in K.
Qed.

(** Roms, with the format named, which it must be: the cart (C15), its memory and code without a trailer, its code if tiny (C16). *)
Theorem C87_rom : forall unicaps trailer o c data, digest_fun sha -> cart_ok c -> o_fail o = true -> o_be o = true ->
  parse_ordered o (c_code c) -> old_fits o (c_code c) -> not_marker o (c_code c) -> write false unicaps trailer o RomF c = Ok data ->
  forall preprocess keep', exists c', read preprocess keep' (Some RomF) data = Ok c' /\ c_rom c' = c_rom c /\ c_code c' = c_code c /\
    (trailer = true -> same_cart c' c).
Proof.
  intros u tr o c data Hs Hc Hf Hb P O M W pre keep'. cbn [write_cart read_cart] in *. destruct tr.
  - destruct (C15_rom_file_partial sha keep' true o c data Hs Hc Hf Hb P O M W) as (_ & _ & c' & R & S). exists c'. split; [exact R|].
    pose proof S as (S1 & S2 & _). split; [exact S1|]. split; [exact S2|]. now intros _.
  - destruct (C15_rom_file_without_trailer_partial sha keep' true o c data Hs Hc Hf Hb P O M W) as (_ & c' & R & S1 & S2). exists c'.
    split; [exact R|]. split; [exact S1|]. split; [exact S2|]. discriminate.
Qed.
Theorem C87_tiny : forall unicaps trailer o c data, cart_ok c -> o_fail o = true -> o_be o = true -> o_old o = false ->
  parse_ordered (force_copts o) (c_code c) -> write false unicaps trailer o TinyRom c = Ok data ->
  forall preprocess keep', exists c', read preprocess keep' (Some TinyRom) data = Ok c' /\ c_code c' = c_code c.
Proof.
  intros u tr o c data Hc Hf Hb Ho P W pre keep'. cbn [write_cart read_cart] in *. exact (C16_tiny_rom_partial sha keep' o c data Hc Hf Hb Ho P W).
Qed.
End Any.

Print Assumptions C87_p8.
Print Assumptions C87_lua.
Print Assumptions C87_png.
Print Assumptions C87_clip.
Print Assumptions C87_url.
Print Assumptions C87_code.
Print Assumptions C87_rom.
Print Assumptions C87_tiny.

(** The cases of C61, C21, C15 and C16 meet these conditions too. *)
Example C87_case : text_cart_ok sample_cart /\ meta_chars scalar sample_cart /\ ~ In 13 (c_code sample_cart) /\ meta_chars (fun ch => ch <> 13) sample_cart /\
  ~ other_format (c_code sample_cart).
Proof.
  split; [apply C61_case|]. split; [|split; [|split]].
  - constructor; [|constructor]. split; repeat constructor; unfold scalar; lia.
  - cbn. lia.
  - constructor; [|constructor]. split; repeat constructor; lia.
  - intros (p & t & I & E). destruct I as [<-|[<-|[<-|[<-|[]]]]]; discriminate E.
Qed.
Example C87_code_case : bytes_ok (c_code sample_cart) /\ plain_code (c_code sample_cart) /\ ~ In 13 (c_code sample_cart) /\ c_code sample_cart <> [].
Proof. destruct C61_case as [H _]. destruct H as (_ & _ & B & P & _). split; [exact B|]. split; [exact P|]. split; [cbn; lia|discriminate]. Qed.

(** "Every cart", with the format named: a carriage return in code that this program wrote is read as a newline; if the format is not named,
    it is kept. *)
Definition code_read (f : option format) (code : list Z) : res (list Z) :=
  data <- write_cart (fun _ => []) (fun _ => []) [] false false false (mkcopts false true false false true) LuaF (code_cart code) ;;
  c <- read_cart (ascii_int 16) (ascii_int 10) ascii_low as_is (fun _ => Err ECheck) (fun _ => []) false f data ;; Ok (c_code c).
Theorem C87_cr_refuted : code_read (Some LuaF) [97; 13; 98] = Ok [97; 10; 98] /\ code_read None [97; 13; 98] = Ok [97; 13; 98].
Proof. split; vm_compute; reflexivity. Qed.
(** Nor is all code read as such if the format is not named: of this, nothing is left. *)
Theorem C87_lua_refuted : code_read None (asc "__lua__=1") = Ok [] /\ code_read (Some LuaF) (asc "__lua__=1") = Ok (asc "__lua__=1").
Proof. split; vm_compute; reflexivity. Qed.

(** Roms are not recognised: unless its format is named, a rom is read as code, and the memory of the cart is lost. *)
Lemma read_lines_rom int16 int10 lower ls : forall st i st', r_header st = Some str_lua -> read_lines int16 int10 lower true st i ls = Ok st' -> r_cart st' = r_cart st.
Proof.
  induction ls as [|l ls IH]; intros st i st' H E; cbn [read_lines] in E; [apply Ok_inj in E; now subst|].
  unfold read_line in E. cbn zeta in E. rewrite andb_false_r in E. rewrite H in E. change (is_header (Some str_lua) str_lua) with true in E. cbv iota in E.
  destruct (to_p8str l) as [p|e]; [|destruct e; discriminate E]. cbn [bind checked] in E. apply IH in E; [exact E|reflexivity].
Qed.
Lemma set_block_hd x m start src : 0 < start -> exists t, set_block (x :: m) start src = x :: t.
Proof. intros H. unfold set_block. destruct (Z.to_nat start) as [|n] eqn:N; [lia|]. cbn [firstn app]. eexists. reflexivity. Qed.
Theorem C87_rom_refuted : forall int16 int10 lower preprocess enc dec sha template keep unicaps trailer o c x rest data d keep' c',
  c_rom c = x :: rest -> 0 <= x < 128 -> ~ In x [112; 95; 91; 104] -> mem_create_rom = Ok d ->
  write_cart enc sha template keep unicaps trailer o RomF c = Ok data ->
  read_cart int16 int10 lower preprocess dec sha keep' None data = Ok c' -> c_rom c' = d.
Proof.
  intros int16 int10 lower pre enc dec sha template keep u tr o c x rest data d keep' c' Hr Hx Nx Hd W R.
  assert (D : exists t, data = x :: t).
  { cbn [write_cart] in W. unfold write_cart_to_rom in W. cbv zeta in W. rewrite set_block_0, Hr in W. cbn [app] in W.
    destruct (match keep with true => _ | false => _ end) as [code|]; [|discriminate W]. cbn [bind] in W.
    match type of W with context [set_block (x :: ?m) ?s code] => destruct (set_block_hd x m s code) as (t & E); [unfold zlen; cbn [length]; lia|]; rewrite E in W end.
    destruct tr; [|apply Ok_inj in W; eauto]. destruct (c_version c) as [[[v0 v1] v2] v3].
    repeat match type of W with bind ?y _ = _ => destruct y; [cbn [bind] in W|discriminate W] end.
    match type of W with context [set_block (x :: ?m) k_cart_size ?s] => destruct (set_block_hd x m k_cart_size s) as (t' & E'); [unfold k_cart_size; lia|]; rewrite E' in W end.
    match type of W with context [set_block (x :: ?m) ?p ?s] => destruct (set_block_hd x m p s) as (t'' & E''); [unfold k_cart_size, zlen; lia|]; rewrite E'' in W end.
    apply Ok_inj in W. eauto. }
  destruct D as (t & ->). cbn [read_cart] in R. unfold read_cart_autodetect in R. rewrite decode_ascii in R by lia.
  assert (K : forall y l z, y <> x -> starts_with (y :: l) (x :: z) = false).
  { intros y l z N. destruct (starts_with (y :: l) (x :: z)) eqn:E; [|reflexivity]. apply starts_with_iff in E as (w & E). injection E as E _. congruence. }
  cbn [In] in Nx. change k_url_prefix with (104 :: asc "ttps://www.pico-8-edu.com") in R. unfold k_png_header, k_clip_prefix, str_prefix, header_line, M_Text.under in R. cbn [app] in R.
  rewrite !K in R by (try lia; intros <-; tauto). cbn [orb] in R. unfold read_cart_from_source in R. rewrite Hd in R. cbn [bind orb] in R. cbv zeta in R.
  match type of R with bind ?y _ = _ => destruct y as [st|] eqn:E; [|discriminate R] end. cbn [bind] in R. apply read_lines_rom in E; [|reflexivity].
  destruct (pre _ _); [|discriminate R]. cbn [bind] in R. apply Ok_inj in R. subst c'. rewrite E. reflexivity.
Qed.
(** A cart whose memory is not that of a new cart. *)
Example C87_rom_case : c_rom (some_cart []) = 1 :: tl (c_rom (some_cart [])) /\ exists data,
  write_cart (fun _ => []) const_sha [] false false false (mkcopts false true false false true) RomF (some_cart []) = Ok data.
Proof. split; [reflexivity|]. cbn [write_cart]. unfold write_cart_to_rom. cbn [c_code some_cart c_code_rom]. eexists. reflexivity. Qed.
Print Assumptions C87_cr_refuted.
Print Assumptions C87_lua_refuted.
Print Assumptions C87_rom_refuted.

Section Picotron.
Context (int10 : list Z -> option Z) (H10 : decimal_reader int10) (png : list Z -> res cart64).
Notation auto := (read_cart64_autodetect int10 png).

(** A rom of less than 16 megabytes is read as one (C44). *)
Theorem C88_rom : forall cart fast padding limit rom, sound_files (c64_files cart) -> 0 <= c64_version cart < 256 ->
  write_cart64_to_rom padding limit fast cart = Ok rom -> zlen rom < 16777216 ->
  forall version, exists fs, auto version rom = Ok (mkcart64 (c64_version cart) fs) /\ Permutation (c64_files cart) fs /\ dirs_first fs.
Proof.
  intros cart fast padding limit rom S V W L version. destruct (C44_roundtrip cart fast S V) as (size & A & B & C).
  assert (No : ~ over limit size) by (intros O; rewrite (A padding limit O) in W; discriminate W).
  assert (Sz : size - 8 < 4294967296) by (destruct (Z_lt_le_dec (size - 8) 4294967296); [assumption|]; rewrite (B l padding limit No) in W; discriminate W).
  destruct (C Sz padding limit No) as (rom' & E & _ & _ & R). assert (rom' = rom) by congruence. subst rom'. destruct (R version false []) as (fs & Rd & Q). rewrite app_nil_r in Rd.
  exists fs. split; [|exact Q]. rewrite <- Rd. clear - W L. unfold write_cart64_to_rom in W. destruct (map_res write_rom_file _) as [io|]; [|discriminate W]. cbn [bind] in W.
  destruct (M_Lz4.lz4_compress (concat io) fast) as [z|]; [|discriminate W]. cbn [bind] in W. match type of W with bind ?x _ = _ => destruct x; [|discriminate W] end. cbn [bind] in W.
  destruct (M_Lz4.w_u8 (c64_version cart)) as [v|] eqn:Ev; [|discriminate W]. cbn [bind] in W. destruct (M_Pxu.w_u32 (zlen z)) as [n|] eqn:En; [|discriminate W]. cbn [bind] in W. apply Ok_inj in W.
  unfold M_Lz4.w_u8 in Ev. destruct (is_byte _); [|discriminate Ev]. apply Ok_inj in Ev. subst v. unfold M_Pxu.w_u32 in En. destruct (_ && _); [|discriminate En]. apply Ok_inj in En. subst n.
  assert (Z0 : zlen z / 16777216 = 0).
  { apply Z.div_small. split; [apply zlen_nonneg|]. rewrite <- W in L. rewrite !zlen_app in L.
    repeat match type of L with context [zlen ?l] => lazymatch l with z => fail | _ => pose proof (zlen_nonneg l); generalize dependent (zlen l); intros end end. lia. }
  rewrite Z0 in W. subst rom. unfold read_cart64_autodetect.
  match goal with |- (if starts_with k_p64_prefix ?d then _ else if starts_with k_png_header _ then _ else if ?b then _ else _) = _ =>
    change (starts_with k_p64_prefix d) with false; change (starts_with k_png_header d) with false; assert (K : b = true) end.
  { change (existsb (Z.eqb 0) ((112 :: 54 :: 52 :: c64_version cart :: zlen z mod 256 :: (zlen z / 256) mod 256 :: (zlen z / 65536) mod 256 :: [0])) = true).
    cbn [existsb Z.eqb]. now rewrite !orb_true_r. }
  now rewrite K.
Qed.

(** A text cart is read as one (C45). *)
Theorem C88_p64 : forall avoid_base64 cart version, text_files avoid_base64 (c64_files cart) -> 0 <= c64_version cart ->
  exists fs, auto version (write_cart64_to_source avoid_base64 cart) = Ok (mkcart64 (c64_version cart) fs) /\ Permutation (c64_files cart) fs /\ parents_first fs.
Proof.
  intros avoid cart version T V. destruct (C45_roundtrip_partial int10 H10 avoid cart version T V) as (fs & E & Q). exists fs. split; [|exact Q]. rewrite <- E.
  unfold read_cart64_autodetect. replace (starts_with k_p64_prefix (write_cart64_to_source avoid cart)) with true; [reflexivity|]. symmetry. apply starts_with_iff.
  unfold write_cart64_to_source. cbv zeta. cbn [app nl_join]. rewrite <- !app_assoc. eexists. reflexivity.
Qed.

(** What begins as a PNG picture is read as one. *)
Theorem C88_png : forall version t, auto version ([137; 80; 78; 71; 13; 10; 26; 10] ++ t) = png ([137; 80; 78; 71; 13; 10; 26; 10] ++ t).
Proof. reflexivity. Qed.

(** Lua code is read as such (C45), unless it begins like another format. *)
Theorem C88_lua : forall version data, plain data ->
  (forall t, data <> asc "picotron cartridge" ++ t) -> (forall t, data <> [137; 80; 78; 71; 13; 10; 26; 10] ++ t) ->
  (forall t, data <> asc "p64" ++ t) \/ ~ In 0 (firstn 8 data) ->
  exists data', (data = data' ++ [10] \/ data = data' /\ forall x, data <> x ++ [10]) /\
    auto version data = Ok (mkcart64 version [(asc "main.lua", Some data')]).
Proof.
  intros version data P N1 N2 N3. destruct (C45_raw int10 version true data P (or_introl eq_refl)) as (data' & D & E). exists data'. split; [exact D|]. change (asc "main.lua") with [109;97;105;110;46;108;117;97]. rewrite <- E.
  assert (K : forall p, (forall t, data <> p ++ t) -> starts_with p data = false).
  { intros p N. destruct (starts_with p data) eqn:S; [|reflexivity]. apply starts_with_iff in S as (t & S). now destruct (N t). }
  unfold read_cart64_autodetect. rewrite !K by assumption. replace (starts_with k_rom_header_sig data && _) with false; [reflexivity|]. symmetry. destruct N3 as [N3|N3]; [now rewrite K|].
  change (Z.to_nat k_rom_header_size) with 8%nat. destruct (existsb (Z.eqb 0) (firstn 8 data)) eqn:X; [|apply andb_false_r]. apply existsb_exists in X as (y & I & Y). apply Z.eqb_eq in Y. subst y. contradiction.
Qed.
End Picotron.

(** The cases of C44 and C45 meet the conditions; here is code. *)
Example C88_case : plain (asc "p64=1") /\ (forall t, asc "p64=1" <> asc "picotron cartridge" ++ t) /\ ~ In 0 (firstn 8 (asc "p64=1")) /\
  read_cart64_autodetect (ascii_int 10) (fun _ => Err ECheck) 7 (asc "p64=1") = Ok (mkcart64 7 [(asc "main.lua", Some (asc "p64=1"))]).
Proof. split; [split; [cbn; lia|intros t E; discriminate E]|]. split; [intros t E; discriminate E|]. split; [cbn; lia|reflexivity]. Qed.

(** Not all code is. *)
Theorem C88_lua_refuted : exists data, plain data /\ read_cart64_autodetect (ascii_int 10) (fun _ => Err ECheck) 7 data = Ok (mkcart64 7 []).
Proof. exists (asc "picotron cartridge=1"). split; [split; [cbn; lia|intros t E; discriminate E]|reflexivity]. Qed.

Print Assumptions C88_rom.
Print Assumptions C88_p64.
Print Assumptions C88_png.
Print Assumptions C88_lua.
Print Assumptions C88_lua_refuted.
