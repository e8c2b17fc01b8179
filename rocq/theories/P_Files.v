(** C43, C50, C51, C64: filters, the order of files, aliases, merging carts. *)
From Verif Require Import M_Base L_Util M_Files S_Files L_Files L_Order.
From Coq Require Import Permutation Wf_nat.
Open Scope Z_scope.

(* ------------------------------------------------------------------ *)
(** * C43: filters *)

(** A filter list selects a path exactly when a positive pattern matches it and no
    negative one does, whatever "match" means. *)
Theorem C43_matches : forall matcher patterns p,
  glob_matches matcher patterns p = true <-> selects matcher patterns p.
Proof. apply glob_matches_spec. Qed.

Theorem C43_order : forall matcher patterns patterns' p,
  (forall q, In q patterns <-> In q patterns') ->
  glob_matches matcher patterns p = glob_matches matcher patterns' p.
Proof.
  intros matcher ps ps' p H. apply eq_true_iff_eq. rewrite !C43_matches. unfold selects. split; intros (A & B).
  - split; [destruct A as (q & I & R); exists q; split; [now apply H|easy]|]. intros q I. apply B. now apply H.
  - split; [destruct A as (q & I & R); exists q; split; [now apply H|easy]|]. intros q I. apply B. now apply H.
Qed.

(** Filtering a cart keeps the selected files, as they are and in their order. *)
Theorem C43_filter : forall file matcher (cart : @files file) sections, NoDup (map fst cart) ->
  exists keep, filter_cart64 matcher cart sections = filter keep cart /\
    forall p f, keep (p, f) = true <-> selects matcher sections p.
Proof.
  intros file matcher cart sections N. exists (fun e => glob_matches matcher sections (fst e)).
  split; [now apply filter_cart64_eq|]. intros p f. apply C43_matches.
Qed.

(** a case: "*" and "!x", where a pattern matches itself and "*" everything *)
Example C43_case :
  let matcher q p := zeqb_list q [42] || zeqb_list q p in
  selects matcher [[42]; [33; 120]] [121] /\ ~ selects matcher [[42]; [33; 120]] [120] /\
  filter_cart64 matcher [([120], Some 1%nat); ([121], Some 2%nat)] [[42]; [33; 120]] = [([121], Some 2%nat)].
Proof.
  cbn zeta. rewrite <- !C43_matches. split; [reflexivity|]. split; [discriminate|reflexivity].
Qed.

(* ------------------------------------------------------------------ *)
(** * C64: merging carts *)

(** a cart that makes sense: no path twice, no empty directory names, every
    directory around a file is there *)
Definition sound_cart {file} (d : @files file) : Prop :=
  NoDup (map fst d) /\
  (forall p, In p (map fst d) -> forall a b, p <> a ++ [47; 47] ++ b) /\
  (forall p x, In p (map fst d) -> around x p -> In x (map fst d)).

Lemma has_In {file} (d : @files file) p : has d p <-> In p (map fst d).
Proof.
  unfold has. destruct (get d p) as [v|] eqn:G.
  - split; [|eauto]. intros _. destruct (in_dec (list_eq_dec Z.eq_dec) p (map fst d)) as [I|I]; [easy|].
    apply get_None in I. congruence.
  - apply get_None in G. split; [intros (v & Q); discriminate Q|easy].
Qed.

(** After merging [src] into [dest] every path holds: the file of [src] if it has
    one that is selected; otherwise the file that [dest] had; otherwise a new
    directory if it is around a file taken from [src]; otherwise nothing.  And the
    result makes sense again. *)
Theorem C64_merge : forall file matcher (dest src : @files file) sections,
  let selected p := match sections with None => True | Some s => selects matcher s p end in
  sound_cart dest -> NoDup (map fst src) ->
  (forall p, In p (map fst src) -> forall a b, p <> a ++ [47; 47] ++ b) ->
  exists dest', merge_cart64 matcher dest src sections = Ok dest' /\ sound_cart dest' /\
    forall p,
      (forall f, In (p, f) src -> selected p -> In (p, f) dest') /\
      ((forall f, In (p, f) src -> ~ selected p) ->
       (forall f, In (p, f) dest -> In (p, f) dest') /\
       (~ In p (map fst dest) ->
        (exists q, In q (map fst src) /\ selected q /\ around p q) -> In (p, None) dest') /\
       (~ In p (map fst dest) ->
        (forall q, In q (map fst src) -> selected q -> ~ around p q) -> ~ In p (map fst dest'))).
Proof.
  intros file matcher dest src sections selected (N & No & Di) Ns Nos.
  destruct (merge_spec matcher sections dest src) as (d & E & (M1 & M2 & M3 & M4)).
  - exact N.
  - intros p x H A. rewrite has_In in *. now apply (Di p).
  - intros p H. rewrite has_In in H. exact (No p H).
  - exact Ns.
  - intros p f I. apply (in_map fst) in I. exact (Nos p I).
  - exists d. split; [exact E|]. split.
    { split; [exact M1|]. split.
      - intros p I. rewrite <- has_In in I. exact (M3 p I).
      - intros p x I A. rewrite <- has_In in *. now apply (M2 p). }
    intros p. destruct (M4 p) as (A & B). split.
    + intros f I S. apply get_In; [exact M1|]. now apply A.
    + intros H. destruct (B H) as (B1 & B2 & B3). split; [|split].
      * intros f I. apply get_In; [exact M1|]. apply B1. now apply get_In.
      * intros Nd (q & I & S & Ar). apply get_In; [exact M1|]. apply B2; [now apply get_None|].
        apply in_map_iff in I. destruct I as ((q', f) & Q & I). cbn in Q. subst q'. now exists q, f.
      * intros Nd Na. apply get_None. apply B3; [now apply get_None|]. intros q f I. apply Na.
        apply (in_map fst) in I. exact I.
Qed.

(** a case: "a/b/c" into a cart with "a/" *)
Example C64_case :
  sound_cart (file := nat) [([97; 47], None)] /\
  merge_cart64 (fun _ _ => true) [([97; 47], None)] [([97; 47; 98; 47; 99], Some 5%nat)] None =
  Ok [([97; 47], None); ([97; 47; 98; 47; 99], Some 5%nat); ([97; 47; 98; 47], None)].
Proof.
  split; [|reflexivity]. split; [constructor; [easy|constructor]|]. split.
  - intros p [<-|[]] a b E. destruct a as [|x [|y [|z a]]]; discriminate E.
  - intros p x [<-|[]] (r & E & (c & Ic & Nc) & (s & ->) & Nx). exfalso.
    destruct s as [|y [|z s]]; cbn in E.
    + now destruct Nx.
    + inversion E; subst. destruct Ic.
    + destruct s; discriminate E.
Qed.

(* ------------------------------------------------------------------ *)
(** * C50: the order of files *)

(** a dict of nodes, each with the nodes it depends on, all of them nodes *)
Definition sound_graph (g : graph) : Prop :=
  NoDup (map fst g) /\ forall n l d, In (n, l) g -> In d l -> In d (map fst g).
Definition needs (g : graph) (n d : nat) : Prop := exists l, In (n, l) g /\ In d l.

Lemma needs_deps g n d : NoDup (map fst g) -> (needs g n d <-> In n (map fst g) /\ In d (deps g n)).
Proof.
  intros N. unfold needs, deps. split.
  - intros (l & I & J). split; [apply (in_map fst) in I; exact I|].
    apply (deps_of_In g N) in I. now rewrite I.
  - intros (I & J). destruct (deps_of g n) as [l|] eqn:E; [|easy]. apply (deps_of_In g N) in E. now exists l.
Qed.

(** Sorting works for every graph, even with cycles, and keeps every node once. *)
Theorem C50_each_once : forall g, sound_graph g ->
  exists l, topologic_sort g = Ok l /\ Permutation (map fst g) l.
Proof.
  intros g (N & C). destruct (topologic_state g N C) as (result & left & c & E & St).
  eexists. split; [exact E|]. rewrite <- Permutation_rev. rewrite <- (rest_spec g N C result left c St).
  apply St.
Qed.

(** A node comes after the nodes it depends on, unless the chains of nodes that
    depend on it go on for ever. *)
Theorem C50_order : forall g l n d, sound_graph g -> topologic_sort g = Ok l ->
  Acc (needs g) n -> needs g n d -> before l d n.
Proof.
  intros g l n d (N & C) E A Nd. destruct (topologic_state g N C) as (result & left & c & E' & St).
  rewrite E in E'. injection E' as ->. set (rest := map fst _).
  assert (A' : Acc (fun u v => In u (map fst g) /\ In v (deps g u)) n).
  { clear Nd. induction A as [n _ IH]. constructor. intros u H. apply IH. now apply needs_deps. }
  pose proof (proj1 (needs_deps g n d N) Nd) as (In_ & Id).
  pose proof (taken g N C result left c St n A' In_) as Ir.
  assert (P : Permutation (map fst g) (result ++ rest)).
  { unfold rest. rewrite <- (rest_spec g N C result left c St). apply St. }
  assert (Ig : In d (map fst g)) by (eapply deps_closed; eauto).
  apply (Permutation_in _ P) in Ig. apply in_app_or in Ig. unfold before.
  assert (O : exists x y z, result ++ rest = x ++ n :: y ++ d :: z).
  { destruct Ig as [I|I].
    - apply in_split in I. destruct I as (x & z & Er). destruct St as (_ & _ & _ & _ & _ & _ & O).
      pose proof (O x d z Er n In_ Id) as J. apply in_split in J. destruct J as (x1 & y1 & ->).
      exists x1, y1, (z ++ rest). rewrite Er. now repeat (rewrite <- ?app_assoc; cbn [app]).
    - apply in_split in I. destruct I as (y & z & Er). apply in_split in Ir. destruct Ir as (x1 & y1 & ->).
      exists x1, (y1 ++ y), z. rewrite Er. now repeat (rewrite <- ?app_assoc; cbn [app]). }
  destruct O as (x & y & z & O). exists (rev z), (rev y), (rev x). rewrite O.
  rewrite rev_app_distr. cbn [rev]. rewrite rev_app_distr. cbn [rev]. now rewrite <- !app_assoc.
Qed.

(** so without cycles every node comes after all it depends on *)
Theorem C50_acyclic : forall g l (rank : nat -> nat), sound_graph g -> topologic_sort g = Ok l ->
  (forall n d, needs g n d -> (rank d < rank n)%nat) ->
  forall n d, needs g n d -> before l d n.
Proof.
  intros g l rank Sg E R n d Nd. apply (C50_order g l n d Sg E); [|exact Nd].
  (* ranks of nodes that need others grow, up to the highest *)
  set (top := list_max (map rank (map fst g))).
  assert (Top : forall u, In u (map fst g) -> (rank u <= top)%nat).
  { intros u I. assert (L : (list_max (map rank (map fst g)) <= top)%nat) by easy. apply list_max_le in L.
    rewrite Forall_forall in L. apply L. now apply in_map. }
  assert (G : forall k u, (top - rank u < k)%nat -> Acc (needs g) u).
  { induction k as [|k IH]; [lia|]. intros u L. constructor. intros v H. apply IH.
    pose proof (R v u H). assert (In v (map fst g)) by (destruct H as (x & I & _); apply (in_map fst) in I; exact I).
    pose proof (Top v H1). lia. }
  apply (G (S (top - rank n)) n). lia.
Qed.

(** a case: 1 needs 2 and 3, 2 needs 3; 4 and 5 need each other *)
Example C50_case :
  let g := [(1, [2; 3]); (2, [3]); (3, []); (4, [5]); (5, [4])]%nat in
  sound_graph g /\ topologic_sort g = Ok [4; 5; 3; 2; 1]%nat /\ Acc (needs g) 3%nat.
Proof.
  cbn zeta. split; [|split; [reflexivity|]].
  - split; [repeat constructor; cbn; intuition discriminate|]. intros n l d I J. cbn in I.
    intuition (try congruence); match goal with H : (_, _) = (_, _) |- _ => injection H as <- <- end;
    cbn in J |- *; intuition congruence.
  - assert (H : forall u v, needs [(1, [2; 3]); (2, [3]); (3, []); (4, [5]); (5, [4])]%nat u v ->
      (u, v) = (1, 2)%nat \/ (u, v) = (1, 3)%nat \/ (u, v) = (2, 3)%nat \/ (u, v) = (4, 5)%nat \/ (u, v) = (5, 4)%nat).
    { intros u v (l & I & J). cbn in I.
      intuition (try congruence); match goal with H : (_, _) = (_, _) |- _ => injection H as <- <- end;
      cbn in J; intuition (subst; tauto). }
    assert (A1 : Acc (needs [(1, [2; 3]); (2, [3]); (3, []); (4, [5]); (5, [4])]%nat) 1%nat).
    { constructor. intros y Q. apply H in Q. intuition discriminate. }
    constructor. intros y Q. apply H in Q. destruct Q as [Q|[Q|[Q|[Q|Q]]]]; try discriminate Q; injection Q as ->; [exact A1|].
    constructor. intros z Q. apply H in Q. destruct Q as [Q|[Q|[Q|[Q|Q]]]]; try discriminate Q; injection Q as ->. exact A1.
Qed.

(* ------------------------------------------------------------------ *)
(** * C51: aliases *)

(** What resolving returns is no alias, and its arguments are those of the aliases on the
    way, the last one first, and then those given, with spaces between. *)
Theorem C51_resolved : forall strip fuel t name args m a,
  map_aliases strip fuel t name args = Ok (m, a) ->
  alias_get t m = None /\
  exists l, resolves (alias_get t) name l m /\ a = strip (arguments (rev l ++ [args])).
Proof.
  intros strip fuel t name args m a E. apply map_aliases_spec in E. destruct E as (l & R & Ea).
  split; [now apply resolves_end_free in R|]. exists l. now rewrite <- joined_arguments.
Qed.

(** It ends if no alias leads back to itself ([rank] falls along aliases). *)
Theorem C51_ends : forall strip t (rank : list Z -> nat),
  (forall n m a, alias_get t n = Some (m, a) -> (rank m < rank n)%nat) ->
  forall name args, exists fuel r, forall fuel', (fuel <= fuel')%nat ->
    map_aliases strip fuel' t name args = Ok r.
Proof.
  intros strip t rank R name args.
  assert (G : exists l m, resolves (alias_get t) name l m).
  { assert (H : forall k n, (rank n < k)%nat -> exists l m, resolves (alias_get t) n l m).
    { induction k as [|k IH]; [lia|]. intros n L. destruct (alias_get t n) as [(m, a)|] eqn:E.
      - destruct (IH m) as (l & x & Q); [specialize (R n m a E); lia|]. exists (a :: l), x. econstructor; eauto.
      - exists [], n. now constructor. }
    apply (H (S (rank name))). lia. }
  destruct G as (l & m & Q). exists (length l).
  exists (m, strip (fold_left (fun args pre => join_args pre args) l args)).
  intros fuel' L. now apply resolves_runs.
Qed.

(** This is so for the aliases that a program defines, if it never defines a name
    that it used as a target before (or in the same definition). *)
Fixpoint fresh_defs (seen : list (list Z)) (defs : list (list Z * list Z * list Z)) : Prop :=
  match defs with
  | [] => True
  | (source, target, _) :: defs' => ~ In source (target :: seen) /\ fresh_defs (target :: seen) defs'
  end.

Lemma resolves_target t seen : (forall n m a, alias_get t n = Some (m, a) -> In m seen) ->
  forall n l m, resolves (alias_get t) n l m -> m = n \/ In m seen.
Proof.
  intros H n l m R. induction R as [n E|n m' a l m E R IH]; [now left|]. right.
  destruct IH as [->|I]; [|easy]. eapply H; eauto.
Qed.

Theorem C51_defined : forall strip fuel defs t, fresh_defs [] defs ->
  def_aliases strip fuel [] defs = Ok t ->
  forall name args, exists fuel' r, forall fuel'', (fuel' <= fuel'')%nat ->
    map_aliases strip fuel'' t name args = Ok r.
Proof.
  intros strip fuel defs t F E.
  assert (G : forall defs seen t0 t (rank : list Z -> nat), fresh_defs seen defs ->
    (forall n m a, alias_get t0 n = Some (m, a) -> (rank m < rank n)%nat) ->
    (forall n m a, alias_get t0 n = Some (m, a) -> In m seen) ->
    def_aliases strip fuel t0 defs = Ok t ->
    exists rank : list Z -> nat, forall n m a, alias_get t n = Some (m, a) -> (rank m < rank n)%nat).
  { clear. induction defs as [|((source, target), args) defs IH]; intros seen t0 t rank F R I E.
    - injection E as <-. now exists rank.
    - cbn [def_aliases] in E. unfold def_alias in E.
      destruct (map_aliases strip fuel t0 target args) as [(m, a)|e] eqn:M; [|discriminate E]. cbn [bind] in E.
      destruct F as (Fs & F). apply map_aliases_spec in M. destruct M as (l & Rs & _).
      pose proof (resolves_target t0 seen I target l m Rs) as Im.
      assert (Nm : m <> source).
      { intros ->. apply Fs. destruct Im as [->|Im]; [now left|now right]. }
      apply (IH (target :: seen) (add_custom_alias t0 source m a) t
        (fun n => if zeqb_list n source then S (rank m) else rank n)); [exact F| | |exact E].
      + intros n m' a'. unfold add_custom_alias. cbn [alias_get].
        destruct (zeqb_list n source) eqn:Ns.
        * intros [= <- <-]. apply zeqb_list_false in Nm. rewrite Nm. lia.
        * intros Q. assert (Nm' : m' <> source) by (intros ->; apply Fs; right; eapply I; eauto).
          apply zeqb_list_false in Nm'. rewrite Nm'. eapply R; eauto.
      + intros n m' a'. unfold add_custom_alias. cbn [alias_get].
        destruct (zeqb_list n source) eqn:Ns.
        * intros [= <- <-]. destruct Im as [->|Im]; [now left|now right].
        * intros Q. right. eapply I; eauto. }
  destruct (G defs [] [] t (fun _ => 0%nat) F) as (rank & R); try easy.
  intros name args. now apply (C51_ends strip t rank).
Qed.

(** It does not end for every program: after "def-alias: a=b" and "def-alias: b=a"
    the name a is looked up for ever. *)
Theorem C51_refuted : ~ (forall strip fuel defs t, def_aliases strip fuel [] defs = Ok t ->
  forall name args, exists fuel' r, map_aliases strip fuel' t name args = Ok r).
Proof.
  intros H. specialize (H (fun s => s) 5%nat [([97], [98], []); ([98], [97], [])] _ eq_refl [97] []).
  destruct H as (fuel & r & E).
  assert (G : forall fuel name, name = [97] \/ name = [98] -> forall args,
    map_aliases (fun s => s) fuel [([98], ([98], [])); ([97], ([98], []))] name args = Err EFuel).
  { induction fuel0 as [|f IH]; intros name [->| ->] args; cbn; try reflexivity; apply IH; now right. }
  rewrite G in E by now left. discriminate E.
Qed.

Example C51_case :
  fresh_defs [] [([97], [98], [120]); ([99], [97], [121])] /\
  def_aliases (fun s => s) 5 [] [([97], [98], [120]); ([99], [97], [121])]
    = Ok [([99], ([98], [120; 32; 121])); ([97], ([98], [120]))] /\
  map_aliases (fun s => s) 5 [([99], ([98], [120; 32; 121])); ([97], ([98], [120]))] [99] [122]
    = Ok ([98], [120; 32; 121; 32; 122]).
Proof. repeat split; cbn; intuition discriminate. Qed.

Print Assumptions C43_matches.
Print Assumptions C43_order.
Print Assumptions C43_filter.
Print Assumptions C64_merge.
Print Assumptions C50_each_once.
Print Assumptions C50_order.
Print Assumptions C50_acyclic.
Print Assumptions C51_resolved.
Print Assumptions C51_ends.
Print Assumptions C51_defined.
Print Assumptions C51_refuted.
