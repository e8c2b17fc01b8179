(** C85, C86: Picotron carts written to and read from directories. *)
From Coq Require Import String.
From Verif Require Import M_Base L_Util M_Rename M_Url M_Files M_Fs S_Fs L_Fs L_Fs2.
Open Scope Z_scope.
Notation name := M_Fs.name.

(* ------------------------------------------------------------------ *)
(** * C85 *)
(** Whatever is in the cart, and whether it succeeds or not, writing it changes nothing but what is at or in the destination, and makes
    the directories above it that were not there. *)
Theorem C85_inside : forall cwd cart f p dir fspath del f' r, sound f ->
  write_cart64_to_fs cwd cart f p dir fspath del = (f', r) ->
  sound f' /\ forall q, look f' q = look f q \/ inside (abs cwd p) q \/ (inside q (abs cwd p) /\ look f q = None /\ look f' q = Some None).
Proof. intros cwd cart f p dir fspath del f' r S E. exact (write_fs_step _ _ _ _ _ _ _ _ _ _ S E). Qed.

(** Unless the user asks for it, nothing is deleted, directories remain directories, and a file that was not there before, or not the same,
    has the contents of a file of the cart. *)
Theorem C85_keeps : forall cwd cart f p dir fspath f' r, NoDup (map fst cart) -> dir <> Some false ->
  write_cart64_to_fs cwd cart f p dir fspath false = (f', r) ->
  (forall q, look f q <> None -> look f' q <> None) /\ (forall q, look f q = Some None -> look f' q = Some None) /\
  (forall q d, look f' q = Some (Some d) -> look f q = Some (Some d) \/ exists n, get cart n = Some (Some d)).
Proof.
  intros cwd cart f p dir fspath f' r N D E. unfold write_cart64_to_fs in E. apply (write_fs_grows cwd cart N) in E; [exact E|].
  destruct dir as [[|]|]; [discriminate|congruence|]. destruct (get cart fspath) as [[d|]|]; discriminate.
Qed.

(** The check the code makes before it goes on to a file is the right one. *)
Theorem C85_check : forall cwd p base, path_is_inside cwd p base = true <-> p <> [] /\ inside (abs cwd base) (abs cwd p).
Proof. exact is_inside_iff. Qed.

(* ------------------------------------------------------------------ *)
(** * C86 *)
(** A cart whose files are each in a directory of the cart is written, and it is then all that is in the destination. *)
Theorem C86_write : forall cwd tree f p del, tidy tree -> sound f -> p <> [] ->
  (forall q, q <> [] -> inside q (abs cwd p) -> forall d, look f q <> Some (Some d)) ->
  (del = true \/ forall cs, cs <> [] -> look f (abs cwd p ++ cs) = None) ->
  exists f', write_cart64_to_fs cwd (cart_of tree) f p (Some true) [] del = (f', Ok tt) /\
    is_dir f' (abs cwd p) = true /\ forall cs, cs <> [] -> look f' (abs cwd p ++ cs) = look tree cs.
Proof. intros. now apply write_all. Qed.

(** Reading a directory gives a cart with its files, those the filter asks for, and all its directories, in whatever order they are listed. *)
Theorem C86_read : forall cwd tree order matches f p, tidy tree -> (forall l x, In x (order l) <-> In x l) -> p <> [] ->
  is_dir f (abs cwd p) = true -> (forall cs, cs <> [] -> look f (abs cwd p ++ cs) = look tree cs) ->
  exists cart', read_cart64_from_fs cwd order matches f p (Some true) [] = Ok cart' /\
    forall n, get cart' n = match get (cart_of tree) n with Some (Some d) => if matches n then Some (Some d) else None | x => x end.
Proof. intros. now apply read_all. Qed.

(** So a cart that is written and read back is the same. *)
Theorem C86_round_trip : forall cwd tree order f p del, tidy tree -> sound f -> p <> [] ->
  (forall q, q <> [] -> inside q (abs cwd p) -> forall d, look f q <> Some (Some d)) ->
  (del = true \/ forall cs, cs <> [] -> look f (abs cwd p ++ cs) = None) -> (forall l x, In x (order l) <-> In x l) ->
  exists f' cart', write_cart64_to_fs cwd (cart_of tree) f p (Some true) [] del = (f', Ok tt) /\
    read_cart64_from_fs cwd order (fun _ => true) f' p (Some true) [] = Ok cart' /\ forall n, get cart' n = get (cart_of tree) n.
Proof.
  intros cwd tree order f p del T S N Free Del O. destruct (C86_write cwd tree f p del T S N Free Del) as (f' & W & D & Same).
  destruct (C86_read cwd tree order (fun _ => true) f' p T O N D Same) as (c & R & G). exists f', c. split; [exact W|]. split; [exact R|]. intros n. rewrite G. now destruct (get (cart_of tree) n) as [[]|].
Qed.

Lemma basename_plain n : ~ In 47 n -> path_basename n = n.
Proof. intros N. unfold path_basename. now rewrite split_none. Qed.
Lemma basename_slash a n : ~ In 47 n -> path_basename (a ++ 47 :: n) = n.
Proof. intros N. unfold path_basename. rewrite split_sep, (split_none 47 n) by exact N. now rewrite last_last. Qed.
Lemma ends_slash_plain n : ~ In 47 n -> ends_slash n = false.
Proof. intros N. destruct (ends_slash n) eqn:E; [|reflexivity]. apply ends_cut in E as [b ->]. exfalso. apply N, in_or_app. right. now left. Qed.
(** A single file of a cart is written to where it is asked for, or into the directory that is there, and nothing else is changed; *)
Theorem C86_write_one : forall cwd cart f p dir dir_name n d del, dir = Some false \/ dir = None -> p <> [] -> plain n ->
  forall fspath, fspath = n \/ fspath = dir_name ++ 47 :: n -> get cart fspath = Some (Some d) ->
  forall q, q = (if is_dir f (abs cwd p) then path_join p n else p) -> is_dir f (abs cwd q) = false -> is_dir f (removelast (abs cwd q)) = true ->
  exists f', write_cart64_to_fs cwd cart f p dir fspath del = (f', Ok tt) /\ look f' (abs cwd q) = Some (Some d) /\
    forall o, o <> abs cwd q -> look f' o = look f o.
Proof.
  intros cwd cart f p dir dir_name n d del Hd Hp (N2 & _ & _ & N1) fspath Hf G q Hq D1 D2. unfold write_cart64_to_fs. cbv zeta.
  replace (match dir with Some d => d | None => match get cart fspath with Some None => true | _ => false end end) with false
    by (destruct Hd as [-> | ->]; [reflexivity|now rewrite G]).
  cbn [write_fs]. cbv zeta.
  assert (B : path_basename fspath = n) by (destruct Hf as [-> | ->]; [now apply basename_plain|now apply basename_slash]).
  rewrite B. replace (path_is_dir cwd f p) with (is_dir f (abs cwd p)) by (unfold path_is_dir; destruct p; [easy|reflexivity]).
  rewrite <- Hq, G. unfold write_at. destruct q as [|x q].
  { exfalso. destruct (is_dir f (abs cwd p)); [|now subst]. unfold path_join in Hq. destruct (starts_slash n); [now subst|]. destruct p; [easy|].
    destruct (ends_slash _); discriminate. }
  unfold file_write. rewrite D1, D2. cbn [negb andb]. eexists. split; [reflexivity|]. split; [now rewrite look_put, same_path_refl|]. intros o Ho. rewrite look_put. destruct (same_path o _) eqn:E; [|reflexivity]. apply same_path_iff in E. congruence.
Qed.
(** a single file that is read is a cart of one file, with the name of the file. *)
Theorem C86_read_one : forall cwd order f p above n d, p = n \/ p = above ++ 47 :: n -> plain n -> abs cwd p <> [] ->
  look f (abs cwd p) = Some (Some d) ->
  forall dir, dir = None \/ dir = Some false -> read_cart64_from_fs cwd order (fun _ => true) f p dir [] = Ok [(n, Some d)].
Proof.
  intros cwd order f p above n d Hp (N2 & _ & _ & N1) A L dir Hd. unfold read_cart64_from_fs. cbn [read_fs]. cbv zeta. cbn [zeqb_list orb dot].
  assert (P : p <> []) by (destruct Hp as [-> | ->]; [exact N2|now destruct above]).
  assert (D : path_is_dir cwd f p = false).
  { unfold path_is_dir. destruct p; [easy|]. unfold is_dir. destruct (abs cwd _); [easy|]. now rewrite L. }
  replace (match dir with Some d => d | None => path_is_dir cwd f p end) with false by (destruct Hd as [-> | ->]; auto).
  assert (B : path_basename p = n) by (destruct Hp as [-> | ->]; [now apply basename_plain|now apply basename_slash]).
  rewrite B. cbn [app]. replace (ends_slash n) with false by (symmetry; now apply ends_slash_plain).
  unfold read_at, file_read. destruct p as [|x p]; [easy|]. destruct (abs cwd (x :: p)) as [|y q] eqn:E; [easy|]. now rewrite L.
Qed.

(** "Every cart": a file whose directory is not itself in the cart is left out, without an error. *)
Theorem C86_refuted : exists cart, get cart (str "gfx/0.gfx") = Some (Some [1]) /\
  write_cart64_to_fs (str "/home") cart [] (str "out") (Some true) [] false = ([(map str ["home"; "out"]%string, None); (map str ["home"]%string, None)], Ok tt).
Proof. exists [(str "gfx/0.gfx", Some [1])]. split; vm_compute; reflexivity. Qed.
(** A file called like a directory is put into the directory, over the file of the cart that belongs there. *)
Theorem C86_same_name_refuted : exists cart, get cart (str "a/a") = Some (Some [1]) /\ get cart (str "a") = Some (Some [2]) /\
  let r := write_cart64_to_fs (str "/home") cart [] (str "out") (Some true) [] false in
  snd r = Ok tt /\ look (fst r) (map str ["home"; "out"; "a"; "a"]%string) = Some (Some [2]).
Proof. exists [(str "a/", None); (str "a/a", Some [1]); (str "a", Some [2])]. repeat split; vm_compute; reflexivity. Qed.

(* ------------------------------------------------------------------ *)
(** Concrete cases. *)
Definition some_tree : list (list name * entry) :=
  [(map str ["main.lua"], Some [1; 2]); (map str ["gfx"; "0.gfx"], Some [3]); (map str ["gfx"], None); (map str ["gfx"; "old"], None); (map str ["gfx"; "old"; "0.gfx"], Some [])]%string.
Definition some_fs : fs := [(map str ["home"], None); (map str ["home"; "x"], Some [7]); (map str ["home"; "out"], None); (map str ["home"; "out"; "y"], Some [8])]%string.
Lemma plain_b c : (negb (zeqb_list c []) && negb (zeqb_list c dot) && negb (zeqb_list c dotdot) && negb (existsb (Z.eqb 47) c))%bool = true -> plain c.
Proof.
  rewrite !andb_true_iff, !negb_true_iff. intros (((A & B) & C) & D). apply zeqb_false in A, B, C. repeat split; auto. intros I. assert (X : existsb (Z.eqb 47) c = true) by (apply existsb_exists; exists 47; auto). congruence.
Qed.
Example ex_tidy : tidy some_tree.
Proof.
  constructor.
  - vm_compute. repeat constructor; cbn; intuition discriminate.
  - intros cs e I. repeat (destruct I as [[= <- <-]|I]; [split; [discriminate|]; repeat constructor; apply plain_b; vm_compute; reflexivity|]). destruct I.
  - intros cs c e I N. repeat (destruct I as [I|I]; [injection I as I _; match type of I with ?k = _ => apply (f_equal (@removelast _)) in I end; rewrite removelast_last in I; subst cs; vm_compute; vm_compute in N; first [congruence|auto 10]|]). destruct I.
Qed.
Example ex_sound : sound some_fs.
Proof.
  intros p n H. destruct (look some_fs (p ++ [n])) as [e|] eqn:L; [|congruence]. apply look_in in L.
  repeat (destruct L as [L|L]; [injection L as L _; apply (f_equal (@removelast _)) in L; rewrite removelast_last in L; subst p; first [left; reflexivity|right; vm_compute; reflexivity]|]). destruct L.
Qed.
(** The cart goes to a new directory of a system that has others, beside a file that stays. *)
Example ex_write : let r := write_cart64_to_fs (str "/home") (cart_of some_tree) some_fs (str "new/../cart/.") (Some true) [] false in
  snd r = Ok tt /\ look (fst r) (map str ["home"; "cart"; "gfx"; "old"; "0.gfx"]%string) = Some (Some []) /\ look (fst r) (map str ["home"; "x"]%string) = Some (Some [7]).
Proof. repeat split; vm_compute; reflexivity. Qed.
Example ex_write_free : (forall q, q <> [] -> inside q (abs (str "/home") (str "cart")) -> forall d, look some_fs q <> Some (Some d)) /\
  forall cs, cs <> [] -> look some_fs (abs (str "/home") (str "cart") ++ cs) = None.
Proof.
  split.
  - intros q N (r & E) d. change (abs (str "/home") (str "cart")) with (map str ["home"; "cart"]%string) in E. destruct q as [|a [|b [|c q]]]; [easy| | |discriminate E].
    + injection E as <- _. vm_compute. discriminate.
    + injection E as <- <- _. vm_compute. discriminate.
  - intros cs N. reflexivity.
Qed.
(** A cart that means harm is stopped at its first such file. *)
Example ex_escape : write_cart64_to_fs (str "/home") [(str "ok", Some [1]); (str "../", None); (str "../x", Some [2])] some_fs (str "out") (Some true) [] false =
  (put some_fs (map str ["home"; "out"; "ok"]%string) (Some [1]), Err ECheck) /\
  path_is_inside (str "/home") (str "out/..") (str "out") = false /\ path_is_inside (str "/home") (str "/") (str "out") = false /\ path_is_inside (str "/home") (str "out/./a/") (str "out") = true.
Proof. repeat split; vm_compute; reflexivity. Qed.
(** What was there before is in the cart read back unless it is deleted. *)
Example ex_delete : let r := write_cart64_to_fs (str "/home") (cart_of some_tree) some_fs (str "out") (Some true) [] true in
  snd r = Ok tt /\ look (fst r) (map str ["home"; "out"; "y"]%string) = None /\ exists c, read_cart64_from_fs (str "/home") (@rev _) (fun _ => true) (fst r) (str "out") (Some true) [] = Ok c /\ length c = 5%nat.
Proof. split; [vm_compute; reflexivity|]. split; [vm_compute; reflexivity|]. eexists. split; vm_compute; reflexivity. Qed.
(** One file, into a directory and to a new name, and back. *)
Example ex_one : let c := cart_of some_tree in let n := fst (last c ([], None)) in
  snd (write_cart64_to_fs (str "/home") c some_fs (str "out") None n false) = Ok tt /\
  look (fst (write_cart64_to_fs (str "/home") c some_fs (str "other") (Some false) n false)) (map str ["home"; "other"]%string) = get c n /\
  read_cart64_from_fs (str "/home") (fun l => l) (fun _ => true) some_fs (str "out/y") None [] = Ok [(str "y", Some [8])].
Proof. repeat split; reflexivity. Qed.

Print Assumptions C85_inside.
Print Assumptions C85_keeps.
Print Assumptions C85_check.
Print Assumptions C86_write.
Print Assumptions C86_read.
Print Assumptions C86_round_trip.
Print Assumptions C86_write_one.
Print Assumptions C86_read_one.
Print Assumptions C86_refuted.
Print Assumptions C86_same_name_refuted.
