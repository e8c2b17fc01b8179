(** Model of the generic LZ77 parser [get_lz77], /repo/pico_compress.py l.172-411. *)
From Verif Require Import M_Base.
Open Scope Z_scope.

(** The items yielded by [get_lz77] (l.187-202): a literal [code[i]], an
    [Lz77Entry(offset, count)] (l.172-174), or a literal block [code[i:end]]. *)
Inductive item :=
  | Lit (c : Z)
  | Mat (offset count : Z)
  | Blk (s : list Z).

(** Values of the match dictionaries: a list of positions (in insertion order)
    or a [SubMatchDict(dict, best_j)] (l.182-185).  Dictionaries are association
    lists in insertion order. *)
Inductive mtree :=
  | ML (l : list Z)
  | MS (d : list (list Z * mtree)) (best_j : Z).
Definition mdict := list (list Z * mtree).

(** Number of equal leading elements. *)
Fixpoint common_prefix (a b : list Z) : nat :=
  match a, b with
  | x :: a, y :: b => if x =? y then S (common_prefix a b) else O
  | _, _ => O
  end.

(** Optional-int parameters: [None] is Python's None. *)
Definition opt_min (c : Z) (m : option Z) : Z :=
  match m with Some m => Z.min c m | None => c end.

(** [max_o != None and j < i - max_o] (l.229, l.248, l.263). *)
Definition too_far (m : option Z) (i j : Z) : bool :=
  match m with Some m => j <? i - m | None => false end.

(** [d[key]] on a defaultdict whose value may be updated in place: [rec] handles
    an existing value, [dflt]/[new] describe a missing key (inserted at the end). *)
Definition dict_look {R} (rec : mtree -> R * mtree) (dflt : R) (new : mtree) (key : list Z)
  : mdict -> R * mdict :=
  fix look (d : mdict) : R * mdict :=
    match d with
    | [] => (dflt, [(key, new)])
    | (k, t) :: d =>
        if zeqb_list k key then let '(r, t') := rec t in (r, (k, t') :: d)
        else let '(r, d') := look d in (r, (k, t) :: d')
    end.

Section Lz77.
Variable code : list Z.

(** Parameters of [get_lz77] (l.187-188) used by the match dictionary. *)
Variables (min_c : Z) (max_c max_o : option Z) (no_repeat : bool).

(** [get_match_length(code, i, code, j, start)] (l.208-213): extends a match
    known to have [start] elements while the next elements agree and both
    positions are inside the code. *)
Definition get_match_length (i j start : Z) : Z :=
  start + Z.of_nat (common_prefix (skipn (Z.to_nat (i + start)) code)
                                  (skipn (Z.to_nat (j + start)) code)).

(** The candidate loop of [find_match] (l.234-255); [ms] is the already
    reversed candidate list, [mc] the local [min_c].  The local [best_slice] is
    always [code[i:i+best_c]] and is inlined. *)
Fixpoint fm_list (i mc : Z) (mo : option Z) (ms : list Z) (best_c best_j : Z) : Z * Z :=
  match ms with
  | [] => (best_c, best_j)
  | j :: ms =>
      if zeqb_list (slice code i (i + best_c)) (slice code j (j + best_c)) then
        let c := get_match_length i j (if 0 <? best_c then best_c else mc) in
        let c := opt_min c max_c in
        let c := if no_repeat then Z.min c (i - j) else c in
        if too_far mo i j then (best_c, best_j)
        else if ((best_c <? c) && (mc <=? c)) || ((c =? best_c) && (best_j <? j))
        then fm_list i mc mo ms c j
        else fm_list i mc mo ms best_c best_j
      else fm_list i mc mo ms best_c best_j
  end.

(** [find_match] below the dictionary lookup (l.215-255): returns
    (best_c, best_j) and the (possibly extended, see [fm_dict]) tree. *)
Fixpoint fm_tree (i mc : Z) (mo : option Z) (t : mtree) : (Z * Z) * mtree :=
  match t with
  | ML l => (fm_list i mc mo (rev l) 0 (-1), t)
  | MS d bj =>
      let key := slice code i (i + (mc + 1)) in
      (* l.217: [matches_dict[key]] on a defaultdict inserts [] when missing *)
      let '((c, j), d') :=
        dict_look (fun t => fm_tree i (mc + 1) mo t) (0, -1) (ML []) key d in
      if c =? 0 then
        (* l.221-232 *)
        if 0 <=? bj then
          let c1 := opt_min mc max_c in
          let c2 := if no_repeat then Z.min c1 (i - bj) else c1 in
          if too_far mo i bj then ((c, j), MS d' bj) else ((c2, bj), MS d' bj)
        else ((c, j), MS d' bj)
      else ((c, j), MS d' bj)
  end.

(** [find_match(i, max_o=mo)] on the top-level dictionary (l.215-217). *)
Definition fm_dict (i : Z) (mo : option Z) (d : mdict) : (Z * Z) * mdict :=
  dict_look (fm_tree i min_c mo) (0, -1) (ML []) (slice code i (i + min_c)) d.

(** [dict[key].append(j)] on a defaultdict of lists (l.266). *)
Fixpoint dict_append (key : list Z) (j : Z) (d : mdict) : mdict :=
  match d with
  | [] => [(key, ML [j])]
  | (k, t) :: d =>
      if zeqb_list k key then
        (k, match t with ML l => ML (l ++ [j]) | MS _ _ => t end) :: d
      else (k, t) :: dict_append key j d
  end.

(** [convert_to_matches_dict(matches, min_i, c)] (l.257-269). *)
Fixpoint conv_loop (min_i c : Z) (ms : list Z) (d : mdict) (best_j : Z) : mdict * Z :=
  match ms with
  | [] => (d, best_j)
  | j :: ms =>
      if too_far max_o min_i j then conv_loop min_i c ms d best_j
      else conv_loop min_i c ms (dict_append (slice code j (j + c)) j d) j
  end.
Definition convert_matches (ms : list Z) (min_i c : Z) : mtree :=
  let '(d, bj) := conv_loop min_i c ms [] (-1) in MS d bj.

Definition dict_mem (key : list Z) (d : mdict) : bool :=
  existsb (fun kt => zeqb_list (fst kt) key) d.
Definition dict_len_with (key : list Z) (d : mdict) : nat :=
  if dict_mem key d then length d else S (length d).

(** Adding position [j] while the loop is at position [i] (l.393-407), from the
    point where [matches] (at depth [c], inside a dict of [dlen] entries) is known;
    [ins_leaf] is l.404-407, [ins_tree] the descent l.398-402. *)
Definition ins_leaf (i j c : Z) (dlen : nat) (l : list Z) : mtree :=
  let l' := l ++ [j] in
  if (200 <? Z.of_nat (length l')) && (5 <? Z.of_nat dlen) && (c <? min_c * 6)
  then convert_matches l' i (c + 1) else ML l'.

Fixpoint ins_tree (i j c : Z) (dlen : nat) (t : mtree) : mtree :=
  match t with
  | ML l => ins_leaf i j c dlen l
  | MS d _ =>
      let key := slice code j (j + (c + 1)) in
      let dl := dict_len_with key d in
      MS (snd (dict_look (fun t => (tt, ins_tree i j (c + 1) dl t)) tt
                         (ins_leaf i j (c + 1) dl []) key d)) j
  end.

Definition ins_dict (i j : Z) (d : mdict) : mdict :=
  let key := slice code j (j + min_c) in
  let dl := dict_len_with key d in
  snd (dict_look (fun t => (tt, ins_tree i j min_c dl t)) tt (ins_leaf i j min_c dl []) key d).

(** [for j in range(prev_i, i)] (l.393). *)
Fixpoint ins_range (n : nat) (i j : Z) (d : mdict) : mdict :=
  match n with O => d | S n => ins_range n i (j + 1) (ins_dict i j d) end.

(** [Lz77Advance] (l.176-180); the chain through [prev] is kept as [a_path], the
    list of (i, item) pairs from this advance backwards ([get_advance_items],
    l.311-314). *)
Variable C : Type.
Record adv := mkadv { a_next : Z; a_cost : Z; a_ctxt : option C; a_path : list (Z * item) }.

(** Callbacks.  [measure] is [None] in the fast mode.  It may raise.  It also
    receives the items already yielded: the real callback reads the [mtf] list
    that the consumer of the generator updates as items are yielded.
    An absent [min_cost] is the constant 0; an absent [get_cheaper_c] is [None]. *)
Variable measure : option (list (Z * item) -> option C -> item -> res (Z * option C)).
Variable min_cost : Z -> Z.
Variable get_cheaper_c : option (Z -> Z).
Variable o_steps : list Z.
Variable fast_c : option Z.

(** The scan of [add_advance] (l.276-296).  [None]: not worthwhile (return);
    [Some ins]: insert position found ([ins = Some (idx, do_replace)]) or not. *)
Fixpoint adv_scan (cost next_i : Z) (advs : list adv) (idx : nat) (ins : option (nat * bool))
  : option (option (nat * bool)) :=
  match advs with
  | [] => Some ins
  | a :: advs =>
      let ins := match ins with
                 | None => if next_i =? a_next a then Some (idx, true)
                           else if next_i <? a_next a then Some (idx, false) else None
                 | Some _ => ins
                 end in
      match ins with
      | Some _ => if a_cost a - min_cost (a_next a - next_i) <=? cost then None
                  else adv_scan cost next_i advs (S idx) ins
      | None => adv_scan cost next_i advs (S idx) ins
      end
  end.

(** [add_advance] (l.276-304). *)
Definition add_advance (i : Z) (cur : option adv) (cost : Z) (ctxt : option C) (c : Z) (it : item)
  (advs : list adv) : list adv :=
  let next_i := i + c in
  match adv_scan cost next_i advs 0 None with
  | None => advs
  | Some ins =>
      let prev := match cur with Some a => a_path a | None => [] end in
      let na := mkadv next_i cost ctxt ((i, it) :: prev) in
      match ins with
      | Some (idx, true) => list_upd advs idx na
      | Some (idx, false) => firstn idx advs ++ na :: skipn idx advs
      | None => advs ++ [na]
      end
  end.

(** Loop state of the main loop (l.271-274 and [next_litblock], [litblock_idxs]). *)
Record lst := mkst {
  s_i : Z; s_prev : Z; s_advs : list adv; s_cur : option adv; s_d : mdict;
  s_next : Z; s_idxs : list Z; s_out : list (Z * item) }.

(** [litblock_idxs.popleft() if litblock_idxs else len(code)]. *)
Definition pop_idx (l : list Z) : Z * list Z :=
  match l with x :: l => (x, l) | [] => (zlen code, []) end.

Definition cur_items (cur : option adv) : list (Z * item) :=
  match cur with Some a => rev (a_path a) | None => [] end.

(** [add_lz77_advance(j, c)] (l.306-309). *)
Definition add_lz77_advance (m : list (Z * item) -> option C -> item -> res (Z * option C))
  (out : list (Z * item)) (i : Z) (cur : option adv) (j c : Z) (advs : list adv) : res (list adv) :=
  let it := Mat (i - j) c in
  let cctxt := match cur with Some a => a_ctxt a | None => None end in
  let ccost := match cur with Some a => a_cost a | None => 0 end in
  '(cost, ctxt) <- m out cctxt it ;;
  Ok (add_advance i cur (ccost + cost) ctxt c it advs).

(** The match plus its cheaper variant (l.343-349 and l.359-365). *)
Definition add_match_and_cheaper m out (i : Z) cur (j c : Z) (advs : list adv) : res (list adv) :=
  advs <- add_lz77_advance m out i cur j c advs ;;
  match get_cheaper_c with
  | None => Ok advs
  | Some f =>
      let cheap := f c in
      if (cheap <? c) && (min_c <=? cheap) then add_lz77_advance m out i cur j cheap advs
      else Ok advs
  end.

(** The [max_o_steps] loop (l.351-365). *)
Fixpoint o_steps_loop m out (i : Z) cur (best_j : Z) (steps : list Z) (d : mdict) (advs : list adv)
  : res (list adv * mdict) :=
  match steps with
  | [] => Ok (advs, d)
  | step :: steps =>
      if i - best_j <=? step then Ok (advs, d)
      else
        let '((c, j), d) := fm_dict i (Some step) d in
        if 0 <? c then
          advs <- add_match_and_cheaper m out i cur j c advs ;;
          o_steps_loop m out i cur best_j steps d advs
        else o_steps_loop m out i cur best_j steps d advs
  end.

(** sys.maxsize *)
Definition maxsize : Z := 0x7fffffffffffffff.

(** [code[i]] inside the main loop, where [i < len(code)]. *)
Definition code_at (i : Z) : res Z :=
  match znth code i with Some c => Ok c | None => Err EIndex end.

(** Body of the main loop up to (not including) the dictionary update:
    returns the new state (with [s_prev] unchanged) and [best_c]. *)
Definition lz_choose (s : lst) : res (lst * Z) :=
  let i := s_i s in
  if s_next s <=? i then
    (* l.317-329: literal block *)
    let out := s_out s ++ cur_items (s_cur s) in
    let advs := match s_cur s with Some _ => [] | None => s_advs s end in
    let '(end_i, idxs) := pop_idx (s_idxs s) in
    let '(next, idxs) := pop_idx idxs in
    Ok (mkst end_i (s_prev s) advs None (s_d s) next idxs
             (out ++ [(i, Blk (slice code i end_i))]), maxsize)
  else
    match measure with
    | Some m =>
        (* l.332-373 *)
        let cur := s_cur s in
        let cctxt := match cur with Some a => a_ctxt a | None => None end in
        let ccost := match cur with Some a => a_cost a | None => 0 end in
        ch <- code_at i ;;
        '(chcost, chctxt) <- m (s_out s) cctxt (Lit ch) ;;
        let advs := add_advance i cur (ccost + chcost) chctxt 1 (Lit ch) (s_advs s) in
        let '((best_c, best_j), d) := fm_dict i max_o (s_d s) in
        '(advs, d) <-
          (if 0 <? best_c then
             advs <- add_match_and_cheaper m (s_out s) i cur best_j best_c advs ;;
             o_steps_loop m (s_out s) i cur best_j o_steps d advs
           else Ok (advs, d)) ;;
        match advs with
        | [] => Err EIndex
        | a :: advs =>
            match advs with
            | [] => Ok (mkst (a_next a) (s_prev s) [] None d (s_next s) (s_idxs s)
                             (s_out s ++ rev (a_path a)), best_c)
            | _ => Ok (mkst (a_next a) (s_prev s) advs (Some a) d (s_next s) (s_idxs s) (s_out s), best_c)
            end
        end
    | None =>
        (* l.375-388: greedy *)
        let mk i' d it := mkst i' (s_prev s) (s_advs s) (s_cur s) d (s_next s) (s_idxs s)
                               (s_out s ++ [(i, it)]) in
        ch <- code_at i ;;
        let '((best_c, best_j), d) := fm_dict i max_o (s_d s) in
        if 0 <? best_c then
          let '((skip_c, _), d) := fm_dict (i + 1) max_o d in
          if best_c <? skip_c then Ok (mk (i + 1) d (Lit ch), best_c)
          else Ok (mk (i + best_c) d (Mat (i - best_j) best_c), best_c)
        else Ok (mk (i + 1) d (Lit ch), best_c)
    end.

(** One iteration (l.316-409). *)
Definition lz_step (s : lst) : res lst :=
  '(s', best_c) <- lz_choose s ;;
  let add := match fast_c with None => true | Some f => best_c <? f end in
  let d := if add then ins_range (Z.to_nat (s_i s' - s_prev s')) (s_i s') (s_prev s') (s_d s')
           else s_d s' in
  Ok (mkst (s_i s') (s_i s') (s_advs s') (s_cur s') d (s_next s') (s_idxs s') (s_out s')).

(** The main loop (l.316) and the final assertion (l.411). *)
Fixpoint lz_loop (fuel : nat) (s : lst) : res (list (Z * item)) :=
  if s_i s <? zlen code then
    match fuel with
    | O => Err EFuel
    | S fuel => s' <- lz_step s ;; lz_loop fuel s'
    end
  else match s_cur s with Some _ => Err EAssert | None => Ok (s_out s) end.

(** [get_lz77] as a list of the yielded (index, item) pairs.  Each round of the
    main loop either advances or consumes literal-block positions, so the fuel
    below is enough for every terminating run of interest. *)
Definition get_lz77 (litblock_idxs : list Z) : res (list (Z * item)) :=
  let '(next, idxs) := pop_idx litblock_idxs in
  lz_loop (S (length code) * (2 + length litblock_idxs)) (mkst 0 0 [] None [] next idxs []).

End Lz77.
