(** Property theorems C39 - C42: preprocessing, source locations, tabs. *)
From Verif Require Import M_Base M_Text M_Pre S_Pre L_Util L_Pre L_PreLoop L_PreMore.
Open Scope nat_scope.

(** C39.  Read as items (strings, comments, include lines, other characters), the output
    is the items with each include line replaced by the included cart's code; the first
    include that fails gives its error. *)
Theorem C39_preprocess : forall load path code line items, code = texts items -> items_ok [] items [] ->
  forall fuel, length code < fuel ->
  match output_of (read_included_cart load) i_code items with
  | Ok out => exists maps, preprocess_code load path code line fuel = Ok (out, maps)
  | Err e => preprocess_code load path code line fuel = Err e
  end.
Proof.
  intros load path code line items C OK fuel L.
  pose proof (preprocess_items load path code line (fun _ _ _ => True) (fun _ => True) items C OK) as H.
  specialize (H ltac:(apply Forall_forall; intros [] _; exact I) fuel L).
  destruct (output_of (read_included_cart load) i_code items); [|exact H]. destruct H as (maps & E & _). now exists maps.
Qed.
Print Assumptions C39_preprocess.
(** Every text is made of such items, but for an unclosed "[[" at the end. *)
Theorem C39_items : forall code, exists items rest, code = texts items ++ rest /\ items_ok [] items rest /\
  (rest = [] \/ (exists t, rest = [91; 91]%Z ++ t) /\ ~ long_start rest).
Proof. intros code. apply (items_exist code []). intros _ _. now left. Qed.
Print Assumptions C39_items.
(** Whenever preprocessing gives a result, that is what the result is. *)
Theorem C39_result : forall load path code line fuel out maps, length code < fuel ->
  preprocess_code load path code line fuel = Ok (out, maps) ->
  exists items, code = texts items /\ items_ok [] items [] /\ output_of (read_included_cart load) i_code items = Ok out.
Proof.
  intros load path code line fuel out maps L E. destruct (preprocess_ok _ _ _ _ _ _ _ E L) as (items & C & OK & EO & _). now exists items.
Qed.
Print Assumptions C39_result.
(** Code with no "#include" in it comes out as it went in. *)
Theorem C39_unchanged : forall load path code line fuel, length code < fuel ->
  (forall a b, code <> a ++ 35%Z :: w_include ++ b) ->
  (forall a u, code = a ++ [91; 91]%Z ++ u -> long_start ([91; 91]%Z ++ u)) ->
  exists maps, preprocess_code load path code line fuel = Ok (code, maps).
Proof.
  intros load path code line fuel L NI NL. destruct (C39_items code) as (items & rest & C & OK & F).
  destruct F as [->|[[t ->] F]]; [|exfalso; apply F; eapply NL; exact C]. rewrite app_nil_r in C.
  assert (EO : output_of (read_included_cart load) i_code items = Ok (texts items)).
  { assert (NO : forall ws sp name, ~ In (Include ws sp name) items).
    { intros ws sp name Hin. apply in_split in Hin as (l1 & l2 & ->). apply (NI (texts l1 ++ ws) (sp ++ name ++ texts l2)).
      rewrite C. unfold texts. rewrite map_app, concat_app. cbn [map concat text_of]. rewrite <- !app_assoc. reflexivity. }
    clear - NO. induction items as [|it items IH]; [reflexivity|]. cbn [output_of].
    assert (E : replaced (read_included_cart load) i_code it = Ok (text_of it)).
    { destruct it; try reflexivity. exfalso. eapply NO. now left. }
    rewrite E, IH; [reflexivity|]. intros ws sp name Hin. eapply NO. right. exact Hin. }
  pose proof (C39_preprocess load path code line items C OK fuel L) as H. rewrite EO in H. rewrite <- C in H. exact H.
Qed.
Print Assumptions C39_unchanged.

(** A line with blanks, an include and a comment that mentions one:
    "x=1\n \t#include  b\n--#include c\n". *)
Definition str_b : list Z := [98%Z].
Definition a_load (name : list Z) : res icart := if zeqb_list name str_b then Ok (mkicart str_b [121; 61; 50]%Z []) else Err ECheck.
Definition a_code : list Z := ([120; 61; 49; 10; 32; 9] ++ str_include ++ [32; 32; 98; 10; 45; 45] ++ str_include ++ [32; 99; 10])%Z.
Definition a_items : list item :=
  [Other 120; Other 61; Other 49; Other 10; Include [32; 9] [32; 32] [98]; Other 10; LineComment (str_include ++ [32; 99]); Other 10]%Z.
Lemma a_items_ok : a_code = texts a_items /\ items_ok [] a_items [].
Proof.
  split; [reflexivity|]. unfold a_items.
  do 4 (constructor; [cbn; repeat split; congruence|]).
  constructor.
  { cbn [item_ok]. split; [right; exists [120; 61; 49]%Z; reflexivity|]. split; [repeat (apply Forall_cons; [unfold blank; lia|]); apply Forall_nil|].
    split; [split; [discriminate|split; repeat (apply Forall_cons; [try unfold space_char; lia|]); apply Forall_nil]|].
    split; [split; [exists 98%Z, []; split; [reflexivity|unfold space_char; lia]|repeat (apply Forall_cons; [lia|]); apply Forall_nil]|].
    right. eexists. reflexivity. }
  constructor; [cbn; repeat split; congruence|].
  constructor.
  { cbn [item_ok]. split; [unfold str_include; cbn [app]; repeat (apply Forall_cons; [lia|]); apply Forall_nil|].
    split; [right; eexists; reflexivity|]. apply long_brackets_none. reflexivity. }
  constructor; [cbn; repeat split; congruence|]. constructor.
Qed.
Example C39_case : exists maps, preprocess_code a_load [97%Z] a_code 0 100 =
  Ok (([120; 61; 49; 10; 121; 61; 50; 10; 45; 45] ++ str_include ++ [32; 99; 10])%Z, maps).
Proof.
  destruct a_items_ok as [C OK]. apply (C39_preprocess a_load [97%Z] a_code 0 a_items C OK 100). cbn. lia.
Qed.

(** Refuted: code that ends in an unclosed "[[" is preprocessed for ever. *)
Theorem C39_endless_refuted : forall load path line fuel, preprocess_code load path [120; 61; 91; 91]%Z line fuel = Err EFuel.
Proof.
  intros load path line fuel.
  apply (preprocess_stuck load path [120; 61; 91; 91]%Z line (fun _ _ _ => True) (fun _ => True) [Other 120; Other 61]%Z []); [reflexivity| | | |].
  - do 2 (constructor; [cbn; repeat split; congruence|]). constructor.
  - apply Forall_forall. intros [] _; exact I.
  - apply long_brackets_none. reflexivity.
  - eexists. reflexivity.
Qed.
Print Assumptions C39_endless_refuted.
(** Refuted: a line inside a long string of level 1 is taken for an include:
    "s=[=[\n#include b\n]=]". *)
Theorem C39_level_refuted : exists maps,
  preprocess_code a_load [97%Z] ([115; 61; 91; 61; 91; 10] ++ str_include ++ [32; 98; 10; 93; 61; 93])%Z 0 100 =
  Ok ([115; 61; 91; 61; 91; 10; 121; 61; 50; 10; 93; 61; 93]%Z, maps).
Proof. eexists. vm_compute. reflexivity. Qed.
Print Assumptions C39_level_refuted.
(** Refuted: after an apostrophe in a // comment the include line is not replaced:
    "//'\n#include b\n". *)
Theorem C39_slashes_refuted : let code := ([47; 47; 39; 10] ++ str_include ++ [32; 98; 10])%Z in
  exists maps, preprocess_code a_load [97%Z] code 0 100 = Ok (code, maps).
Proof. eexists. vm_compute. reflexivity. Qed.
Print Assumptions C39_slashes_refuted.

(** C40.  [world p t l]: the file [p] holds the code [t], from its line [l] on. *)
Definition located (world : list Z -> list Z -> nat -> Prop) (maps : list mapping) (out : list Z) : Prop :=
  forall path text j, j < length out -> exists p t k l, get_location path text maps j = (p, t, k, l) /\
    world p t l /\ nth_error t k = nth_error out j.
Lemma located_good world maps out : located world maps out <-> good_maps world maps out.
Proof.
  split; intros H.
  - intros j Hj. destruct (H [] [1%Z] j Hj) as (p & t & k & l & E & W & N). unfold get_location in E.
    destruct (List.find (fun m => m_idx m <=? j) (rev maps)) as [m|] eqn:F.
    + exists m. split; [reflexivity|]. injection E as <- <- <- <-. now split.
    + exfalso. destruct (H [] [] j Hj) as (p' & t' & k' & l' & E' & W' & N'). unfold get_location in E'. rewrite F in E'.
      injection E' as <- <- <- <-. assert (X : nth_error out j = None) by (rewrite <- N'; now destruct j). apply nth_error_None in X. lia.
  - intros path text j Hj. destruct (H j Hj) as (m & F & W & N). exists (m_path m), (m_code m), (m_src m + (j - m_idx m)), (m_line m).
    unfold get_location. rewrite F. now repeat split.
Qed.
(** One file: every character of the output is located in the file it came from, when that
    is so for the included carts, and carts included by tab are in one piece. *)
Theorem C40_map_partial : forall (world : list Z -> list Z -> nat -> Prop) load path code line fuel out maps, length code < fuel ->
  world path code line ->
  (forall name c, load name = Ok c -> located world (i_map c) (i_code c) \/ i_map c = [] /\ world (i_path c) (i_code c) 0) ->
  (forall name d v c ws sp items, code = texts items -> items_ok [] items [] ->
     In (Include ws sp (name ++ [58%Z; d])) items -> hex_digit d v -> load name = Ok c ->
     exists l, i_map c = [mkmap 0 (i_path c) (i_code c) 0 l] /\ world (i_path c) (i_code c) l) ->
  preprocess_code load path code line fuel = Ok (out, maps) -> located world maps out.
Proof.
  intros world load path code line fuel out maps L W HL HT E. destruct (preprocess_ok _ _ _ _ _ _ _ E L) as (items & C & OK & EO & G).
  apply located_good. apply G; [exact W|]. intros ws sp name c Hin Rc. unfold read_included_cart in Rc.
  destruct (tab_suffix name) as [[n v]|] eqn:TS.
  - apply tab_suffix_spec in TS as (d & -> & Hd). destruct (load n) as [c0|] eqn:EL; [|discriminate Rc]. cbn [bind] in Rc.
    destruct (HT n d v c0 ws sp items C OK Hin Hd EL) as (l & M & W0). now apply (trim_single world c0 l v).
  - destruct (HL name c Rc) as [H|H]; [left; now apply located_good|now right].
Qed.
Print Assumptions C40_map_partial.
(** Nested includes of any depth, without tab numbers. *)
Theorem C40_nested_partial : forall fs resolve depth path c,
  (forall p text l items, fs p = Ok (text, l) -> text = texts items -> items_ok [] items [] ->
     forall ws sp name d v, In (Include ws sp (name ++ [58%Z; d])) items -> ~ hex_digit d v) ->
  read_cart_code fs resolve depth path = Ok c -> located (fun p t l => fs p = Ok (t, l)) (i_map c) (i_code c).
Proof.
  intros fs resolve depth path c NT E. apply located_good. eapply nested_mapped; [|exact E].
  intros p text l items EF C OK ws sp name Hin. apply tab_suffix_none. intros n d v -> Hd. now apply (NT _ _ _ _ EF C OK ws sp n d v).
Qed.
Print Assumptions C40_nested_partial.
(** Two files that include each other's text: "u\n#include b\nv" and, in b, "#x". *)
Definition two_fs (p : list Z) : res (list Z * nat) :=
  if zeqb_list p str_b then Ok ([35; 120]%Z, 3) else Ok (([117; 10] ++ str_include ++ [32; 98; 10; 118])%Z, 7).
Example C40_case : match read_cart_code two_fs (fun _ n => Ok n) 5 [97%Z] with
  | Ok c => i_code c = [117; 10; 35; 120; 10; 118]%Z /\ get_location [] [] (i_map c) 3 = (str_b, [35; 120]%Z, 1, 3)
  | Err _ => False end.
Proof. vm_compute. split; reflexivity. Qed.
(** Refuted for tabs: the cart b is "p\n#q\n-->8\nr"; its second tab's "r", included into
    an otherwise empty cart, is located past the end of b. *)
Definition b_text : list Z := [112; 10; 35; 113; 10; 45; 45; 62; 56; 10; 114]%Z.
Definition tab_fs (p : list Z) : res (list Z * nat) := if zeqb_list p str_b then Ok (b_text, 0) else Ok ((str_include ++ [32; 98; 58; 49])%Z, 0).
Theorem C40_tab_refuted : match read_cart_code tab_fs (fun _ n => Ok n) 5 [97%Z] with
  | Ok c => i_code c = [114%Z] /\ get_location [] [] (i_map c) 0 = (str_b, b_text, 12, 0) /\ nth_error b_text 10 = Some 114%Z /\ nth_error b_text 12 = None
  | Err _ => False end.
Proof. vm_compute. repeat split. Qed.
Print Assumptions C40_tab_refuted.

(** C41.  "#include name:d" gives the text of tab [d] exactly. *)
Theorem C41_tab : forall load name d v c l t, hex_digit d v -> load name = Ok c -> tabs (i_code c) l ->
  nth_error l v = Some t -> t <> [] \/ S v < length l ->
  exists maps, read_included_cart load (name ++ [58%Z; d]) = Ok (mkicart (i_path c) t maps).
Proof.
  intros load name d v c l t Hd EL T Et Ht. unfold read_included_cart. rewrite (proj2 (tab_suffix_spec _ name v)) by (exists d; auto).
  rewrite EL. cbn [bind]. unfold trim_cart_to_tab.
  destruct (proj1 (tab_range_spec _ _ T [] 0 v (S (length (i_code c))) ltac:(lia) ltac:(lia)) t) as (st & E & SL); [now rewrite Nat.sub_0_r|now rewrite Nat.sub_0_r|].
  cbn [app length] in E, SL. rewrite E. cbn [bind]. rewrite SL. eexists. reflexivity.
Qed.
Print Assumptions C41_tab.
(** Too few tabs, or an empty last tab: an error. *)
Theorem C41_missing : forall load name d v c l, hex_digit d v -> load name = Ok c -> tabs (i_code c) l ->
  length l <= v \/ nth_error l v = Some [] /\ S v = length l ->
  read_included_cart load (name ++ [58%Z; d]) = Err ECheck.
Proof.
  intros load name d v c l Hd EL T H. unfold read_included_cart. rewrite (proj2 (tab_suffix_spec _ name v)) by (exists d; auto).
  rewrite EL. cbn [bind]. unfold trim_cart_to_tab.
  pose proof (proj2 (tab_range_spec _ _ T [] 0 v (S (length (i_code c))) ltac:(lia) ltac:(lia))) as E. rewrite Nat.sub_0_r in E.
  cbn [app length] in E. now rewrite E.
Qed.
Print Assumptions C41_missing.
(** Every text has tabs; names of any other form mean the whole cart. *)
Theorem C41_tabs_exist : forall code, exists l, tabs code l.
Proof. exact tabs_exist. Qed.
Theorem C41_whole : forall load name, (forall n d v, name = n ++ [58%Z; d] -> ~ hex_digit d v) -> read_included_cart load name = load name.
Proof. intros load name H. unfold read_included_cart. now rewrite tab_suffix_none. Qed.
Print Assumptions C41_tabs_exist. Print Assumptions C41_whole.
(** "p\n#q\n-->8\nr" has two tabs. *)
Example C41_case : tabs b_text [[112; 10; 35; 113]%Z; [114%Z]].
Proof.
  change b_text with ([112; 10; 35; 113]%Z ++ tab_break ++ [114%Z]). constructor.
  - intros a b E. destruct a as [|? [|? [|? [|? a]]]]; cbn in E; try discriminate E. cbn. lia.
  - constructor. intros a b E. destruct a as [|? [|? a]]; discriminate E.
Qed.

(** C42.  The line is the number of newlines before the place, the column its distance
    from the last of them; both starting from 0. *)
Theorem C42_line_col : forall a b c, line_begin a -> no_newline b ->
  get_line_col (a ++ b ++ c) (length (a ++ b)) 0 = Ok (newlines a, Z.of_nat (length b)).
Proof. intros a b c LB NB. exact (get_line_col_spec [] a b c LB NB). Qed.
Print Assumptions C42_line_col.
(** The reported location in the file adds the line the code starts on. *)
Theorem C42_location : forall path a b c start, line_begin a -> no_newline b ->
  get_source_location path (a ++ b ++ c) (length (a ++ b)) start = Ok (path, newlines a + start, Z.of_nat (length b)).
Proof. intros path a b c start LB NB. unfold get_source_location. rewrite C42_line_col by assumption. reflexivity. Qed.
Print Assumptions C42_location.
(** With tabs: a place in tab [n] is reported in that tab, with its line and column there;
    from the 16th tab on everything is in tab 15. *)
Theorem C42_tab_line_col : forall text l n t k pre a b c, tabs text l -> nth_error l n = Some t -> k <= length t ->
  text = pre ++ a ++ b ++ c -> length pre = tab_start l (Nat.min n 15) -> length (pre ++ a ++ b) = tab_start l n + k ->
  line_begin a -> no_newline b ->
  get_tab_line_col text (tab_start l n + k) = Ok (Nat.min n 15, (newlines a, Z.of_nat (length b))).
Proof.
  intros text l n t k pre a b c T Et Lk EQ LP LI LB NB. unfold get_tab_line_col.
  assert (LN : n <= tab_start l n).
  { clear - T Et. revert n t Et. induction T as [|x y l M T IH]; intros n t Et.
    - destruct n as [|[|n]]; try discriminate Et. cbn. lia.
    - destruct n as [|n]; [lia|]. cbn [nth_error tab_start] in *. specialize (IH n t Et). lia. }
  pose proof (tab_line_col_spec text l T [] 0 n k (S (tab_start l n + k)) t Et Lk ltac:(lia) ltac:(lia)) as H. cbn [app length Nat.add] in H.
  rewrite H. change (15 - 0) with 15. rewrite <- LP, <- LI, EQ. rewrite get_line_col_spec by assumption. reflexivity.
Qed.
Print Assumptions C42_tab_line_col.
(** "p\n#q\n-->8\nr": the "q" is in tab 0, line 1, column 1; the "r" in tab 1, line 0. *)
Example C42_case : get_tab_line_col b_text 3 = Ok (0, (1, 1%Z)) /\ get_tab_line_col b_text 10 = Ok (1, (0, 0%Z)).
Proof.
  split.
  - exact (C42_tab_line_col b_text _ 0 _ 3 [] [112; 10]%Z [35%Z] [113; 10; 45; 45; 62; 56; 10; 114]%Z C41_case eq_refl ltac:(cbn; lia)
      eq_refl eq_refl eq_refl ltac:(right; exists [112%Z]; reflexivity) ltac:(repeat constructor; discriminate)).
  - exact (C42_tab_line_col b_text _ 1 _ 0 [112; 10; 35; 113; 10; 45; 45; 62; 56; 10]%Z [] [] [114%Z] C41_case eq_refl ltac:(cbn; lia)
      eq_refl eq_refl eq_refl ltac:(left; reflexivity) ltac:(constructor)).
Qed.
(** Refuted inside a separator: the column is negative. *)
Theorem C42_separator_refuted : get_tab_line_col b_text 6 = Ok (1, (0, (-4)%Z)).
Proof. vm_compute. reflexivity. Qed.
Print Assumptions C42_separator_refuted.
