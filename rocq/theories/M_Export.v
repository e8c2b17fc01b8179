(** Model of the containers of carts: pods, js and pod exports of PICO-8,
    /repo/pico_export.py l.17-388 and l.572-614; system roms and html exports of Picotron,
    /repo/picotron_export.py l.20-62, l.74-86 and l.97-118.
    A cart is the rom that [write_cart_to_rom] makes of it and [read_cart_from_rom] gets
    (M_Rom); for Picotron, what M_Cart64 makes of it.  A name is its UTF-8 bytes in a pod,
    its code points in a js file.  A file is its bytes, the text of a js or html file its
    code points. *)
From Coq Require Import String List.
From Verif Require Import M_Base M_Fold M_Num M_Text M_Lz4 M_Pxu M_Zbytes M_Expr M_P64 M_Cart64.
Import ListNotations.
Open Scope Z_scope.

(* ------------------------------------------------------------------ *)
(** * Editing a set of carts *)

(** [carts]: a dict, in the order of insertion *)
Definition dict (A : Type) := list (list Z * A).
Fixpoint dget {A} (d : dict A) (k : list Z) : option A :=
  match d with [] => None | (k', v) :: d => if zeqb_list k k' then Some v else dget d k end.
Fixpoint dset {A} (d : dict A) (k : list Z) (v : A) : dict A :=
  match d with [] => [(k, v)] | (k', v') :: d => if zeqb_list k k' then (k', v) :: d else (k', v') :: dset d k v end.

(** the arguments of [CartExport.write_cart], l.54-83; no name means the cart's own name for
    an insertion, which is given here, or the first cart *)
Inductive cart_op :=
| OInsert (name : list Z) (target : option (list Z)) (cart : list Z)
| OReplace (name : option (list Z)) (cart : list Z)
| ODelete (name : option (list Z))
| ORename (name : option (list Z)) (new : list Z).

(** l.20-25: what a kind of export has to provide *)
Record impl (St R : Type) := mkimpl {
  get_carts_impl : St -> res (dict R);
  read_impl : St -> R -> res (list Z);
  insert_impl : St -> option R -> list Z -> list Z -> res St;
  replace_impl : St -> R -> list Z -> res St;
  delete_impl : St -> R -> res St;
  rename_impl : St -> R -> list Z -> res St }.
Arguments get_carts_impl {St R} i. Arguments read_impl {St R} i. Arguments insert_impl {St R} i.
Arguments replace_impl {St R} i. Arguments delete_impl {St R} i. Arguments rename_impl {St R} i.

Section CartExport.
Context {St R : Type} (im : impl St R).
(** [_default], l.28-32 *)
Definition default_cart (carts : dict R) : res (list Z) := match carts with (k, _) :: _ => Ok k | [] => Err ECheck end.
(** [_find], l.34-38, and [_contains], l.40-41 *)
Definition find_cart (carts : dict R) (name : list Z) : res R := match dget carts name with Some r => Ok r | None => Err ECheck end.
Definition contains_cart (carts : dict R) (name : list Z) : bool := match dget carts name with Some _ => true | None => false end.
Definition named (carts : dict R) (name : option (list Z)) : res (list Z) :=
  match name with Some n => Ok n | None => default_cart carts end.
(** [list_carts], l.43-44 *)
Definition list_carts (st : St) : res (list (list Z)) := carts <- get_carts_impl im st ;; Ok (map fst carts).
(** [read_cart], l.46-52 *)
Definition read_cart (st : St) (name : option (list Z)) : res (list Z) :=
  carts <- get_carts_impl im st ;;
  name <- named carts name ;;
  ref <- find_cart carts name ;;
  read_impl im st ref.
(** [write_cart], l.54-85 *)
Definition write_cart (st : St) (op : cart_op) : res St :=
  carts <- get_carts_impl im st ;;
  match op with
  | OInsert name target cart =>
      if contains_cart carts name then Err ECheck else
      ref <- match target with Some t => r <- find_cart carts t ;; Ok (Some r) | None => Ok None end ;;
      insert_impl im st ref name cart
  | OReplace name cart => name <- named carts name ;; ref <- find_cart carts name ;; replace_impl im st ref cart
  | ODelete name => name <- named carts name ;; ref <- find_cart carts name ;; delete_impl im st ref
  | ORename name new =>
      name <- named carts name ;;
      ref <- find_cart carts name ;;
      if contains_cart carts new then Err ECheck else rename_impl im st ref new
  end.
Fixpoint write_carts (st : St) (ops : list cart_op) : res St :=
  match ops with [] => Ok st | op :: ops => st <- write_cart st op ;; write_carts st ops end.
End CartExport.

(** [l.insert(i, x)]; past the end it appends *)
Definition list_insert {A} (l : list A) (i : nat) (x : A) : list A := firstn i l ++ x :: skipn i l.
(** [del l[i]] *)
Definition list_delete {A} (l : list A) (i : nat) : list A := firstn i l ++ skipn (S i) l.
(** [str_replace_between], /repo/utils.py l.1490-1492; also [l[start:end] = what] *)
Definition replace_between {A} (s : list A) (start end_ : nat) (what : list A) : list A := firstn start s ++ what ++ skipn end_ s.

(* ------------------------------------------------------------------ *)
(** * Js exports *)

(** [re.search(r"var\s+KEY\s*=\s*\[(.*?)\]", text, re.S)], l.100-110: text up to the group,
    the group, and the text from the bracket on *)
Fixpoint skip_spaces (s : list Z) : list Z * list Z :=
  match s with c :: t => if py_isspace c then let '(a, b) := skip_spaces t in (c :: a, b) else ([], s) | [] => ([], []) end.
Definition lit (p s : list Z) : option (list Z * list Z) := if starts_with p s then Some (p, skipn (length p) s) else None.
(** the part of the pattern before the group *)
Definition js_head (key s : list Z) : option (list Z * list Z) :=
  match lit (asc "var"%string) s with
  | None => None
  | Some (v, s) =>
      match skip_spaces s with
      | ([], _) => None
      | (s1, s) =>
          match lit key s with
          | None => None
          | Some (k, s) =>
              let '(s2, s) := skip_spaces s in
              match lit (asc "="%string) s with
              | None => None
              | Some (e, s) =>
                  let '(s3, s) := skip_spaces s in
                  match lit (asc "["%string) s with
                  | None => None
                  | Some (b, s) => Some (v ++ s1 ++ k ++ s2 ++ e ++ s3 ++ b, s)
                  end
              end
          end
      end
  end.
(** [(.*?)\]] *)
Fixpoint upto_bracket (s : list Z) : option (list Z * list Z) :=
  match s with
  | [] => None
  | c :: t => if c =? 93 then Some ([], s) else match upto_bracket t with Some (a, b) => Some (c :: a, b) | None => None end
  end.
Fixpoint js_find (key s : list Z) : option (list Z * list Z * list Z) :=
  match (match js_head key s with
         | Some (h, r) => match upto_bracket r with Some (g, z) => Some (h, g, z) | None => None end
         | None => None
         end) with
  | Some r => Some r
  | None => match s with
            | [] => None
            | c :: t => match js_find key t with Some (a, g, z) => Some (c :: a, g, z) | None => None end
            end
  end.
(** [str.split(",")] *)
Fixpoint split_comma (cur s : list Z) : list (list Z) :=
  match s with
  | [] => [rev cur]
  | c :: t => if c =? 44 then rev cur :: split_comma [] t else split_comma (c :: cur) t
  end.
(** [s[1:-1]] *)
Definition unquote (s : list Z) : list Z := removelast (tl s).
Definition cartname_key : list Z := asc "_cartname"%string.
Definition cartdat_key : list Z := asc "_cartdat"%string.

Section Js.
(** [int(s)], and [k_cart_size], /repo/pico_defs.py l.117 *)
Context (int10 : list Z -> option Z) (cart_size : nat).

(** [find_cartnames] and [find_cartdata]: where the group is *)
Definition js_slot (key text : list Z) : res (list Z * list Z * list Z) :=
  match js_find key text with Some r => Ok r | None => Err ECheck end.
Definition js_names (text : list Z) : res (list (list Z)) :=
  '(_, g, _) <- js_slot cartname_key text ;;
  Ok match M_Text.strip g with [] => [] | _ => map (fun p => unquote (M_Text.strip p)) (split_comma [] g) end.
(** l.119-123 *)
Fixpoint set_bytes (i : nat) (data : list Z) (pieces : list (list Z)) : res (list Z) :=
  match pieces with
  | [] => Ok data
  | p :: pieces =>
      v <- int_ int10 (M_Text.strip p) ;;
      if negb (is_byte v) then Err EValue
      else if (i <? length data)%nat then set_bytes (S i) (list_upd data i v) pieces else Err EIndex
  end.
Definition js_data (n : nat) (text : list Z) : res (list Z) :=
  '(_, g, _) <- js_slot cartdat_key text ;;
  let data := repeat 0 (cart_size * n) in
  match M_Text.strip g with [] => Ok data | _ => set_bytes 0 data (split_comma [] g) end.
(** the names and bytes that [get_carts_impl], l.112-128, leaves behind, and its result *)
Definition js_parse (text : list Z) : res (list (list Z) * list Z) :=
  names <- js_names text ;;
  data <- js_data (length names) text ;;
  Ok (names, data).
Fixpoint enumerate (i : nat) (names : list (list Z)) (d : dict nat) : dict nat :=
  match names with [] => d | n :: names => enumerate (S i) names (dset d n i) end.
Definition js_get_carts (text : list Z) : res (dict nat) :=
  '(names, _) <- js_parse text ;; Ok (enumerate 0 names []).
(** [slice], l.130-131, and [read_impl], l.133-134 *)
Definition js_read (text : list Z) (i : nat) : res (list Z) :=
  '(_, data) <- js_parse text ;; Ok (firstn cart_size (skipn (cart_size * i) data)).

(** [", ".join(f"`{name}`" for name in m.cartnames)], l.159 *)
Fixpoint join_with (sep : list Z) (l : list (list Z)) : list Z :=
  match l with [] => [] | [x] => x | x :: l => x ++ sep ++ join_with sep l end.
Definition names_text (names : list (list Z)) : list Z := join_with [44; 32] (map (fun n => 96 :: n ++ [96]) names).
(** l.162-166 *)
Fixpoint chunk_lines (fuel : nat) (data : list Z) : list (list Z) :=
  match data with
  | [] => []
  | _ => match fuel with
         | O => []
         | S fuel => join_with [44] (map dec_str (firstn 256 data)) :: chunk_lines fuel (skipn 256 data)
         end
  end.
Definition data_text (data : list Z) : list Z := 10 :: join_with [44; 10] (chunk_lines (length data) data).
(** [finish_write], l.158-168: the slots are looked for in the text as it is at that time *)
Definition js_finish (text : list Z) (names : list (list Z)) (data : list Z) : res (list Z) :=
  '(a, g, z) <- js_slot cartname_key text ;;
  let text := a ++ names_text names ++ z in
  '(a, g, z) <- js_slot cartdat_key text ;;
  Ok (a ++ data_text data ++ z).
(** l.136-156 *)
Definition js_insert (text : list Z) (i : option nat) (name cart : list Z) : res (list Z) :=
  '(names, data) <- js_parse text ;;
  let i := match i with Some i => i | None => length names end in
  js_finish text (list_insert names i name) (replace_between data (cart_size * i) (cart_size * i) cart).
Definition js_replace (text : list Z) (i : nat) (cart : list Z) : res (list Z) :=
  '(names, data) <- js_parse text ;;
  js_finish text names (replace_between data (cart_size * i) (cart_size * S i) cart).
Definition js_delete (text : list Z) (i : nat) : res (list Z) :=
  '(names, data) <- js_parse text ;;
  js_finish text (list_delete names i) (replace_between data (cart_size * i) (cart_size * S i) []).
Definition js_rename (text : list Z) (i : nat) (name : list Z) : res (list Z) :=
  '(names, data) <- js_parse text ;;
  js_finish text (list_upd names i name) data.
Definition js_impl : impl (list Z) nat := mkimpl _ _ js_get_carts js_read js_insert js_replace js_delete js_rename.
End Js.
(** [JsExport.create], l.190-198; [src] is the file in the pod of the player *)
Definition js_create (src : list Z) : list Z :=
  asc "var _cartname=[];"%string ++ [10] ++ asc "var _cdpos=0; var iii=0; var ciii=0;"%string ++ [10] ++
  asc "var _cartdat=[];"%string ++ [10; 10] ++ src.

(* ------------------------------------------------------------------ *)
(** * Pods *)

(** [Palette] and [Surface] hold what the file holds of them: three bytes for a color, and
    the rows of pixels *)
Inductive content :=
| CFile (b : list Z)
| CBmp (w h bpp : Z) (data : list Z)
| CPal (colors : list (Z * Z * Z)).
(** [Entry], l.210-211 *)
Record entry := mkentry { e_header : list Z; e_pos : nat; e_end : nat; e_name : option (list Z); e_content : content }.
Record pod_file := mkpod { p_data : list Z; p_entries : list entry }.

Definition k_cpod : list Z := asc "CPOD"%string.
Definition k_file_header : list Z := asc "CFIL"%string.
Definition k_cmpr_file_header : list Z := asc "cFIL"%string.
Definition k_bmp_header : list Z := asc "CBMP"%string.
Definition k_cmpr_bmp_header : list Z := asc "cBMP"%string.
Definition k_pal_header : list Z := asc "CPAL"%string.
Definition k_num_colors : nat := 256.

Section Pod.
(** whether bytes can be decoded as UTF-8 *)
Context (utf8 : list Z -> bool).

(** [r.zstr(size)] *)
Definition r_zstr (size : nat) (d : list Z) : res (list Z * list Z) :=
  '(s, d) <- read_zbytes (Some size) 1 false d ;; if utf8 s then Ok (s, d) else Err EValue.
(** [lz4_uncompress(r.bytes(r.u32()))] *)
Definition r_lz4 (d : list Z) : res (list Z * list Z) :=
  '(n, d) <- r_u32 d ;; '(b, d) <- r_bytes (Z.to_nat n) false d ;; b <- lz4_uncompress b ;; Ok (b, d).
(** [Surface.from_data] takes the bytes of the rows and raises if there are not enough *)
Definition from_data (w h bpp : Z) (data : list Z) : res content :=
  if negb ((bpp =? 8) || (bpp =? 32)) then Err ECheck else
  let size := Z.to_nat (w * h * (bpp / 8)) in
  if (length data <? size)%nat then Err EValue else Ok (CBmp w h bpp (firstn size data)).
Fixpoint r_colors (n : nat) (d : list Z) : res (list (Z * Z * Z) * list Z) :=
  match n with
  | O => Ok ([], d)
  | S n =>
      '(r, d) <- r_u8 d ;; '(g, d) <- r_u8 d ;; '(b, d) <- r_u8 d ;;
      '(l, d) <- r_colors n d ;; Ok ((r, g, b) :: l, d)
  end.
(** the body of the loop of l.233-272, without the positions *)
Definition read_entry (d : list Z) : res (list Z * option (list Z) * content * list Z) :=
  '(header, d) <- r_bytes 4 false d ;;
  if zeqb_list header k_file_header || zeqb_list header k_cmpr_file_header then
    '(z, d) <- r_u32 d ;;
    _ <- check_ (z =? 0) ;;
    '(size, d) <- r_u32 d ;;
    '(name, d) <- r_zstr 64 d ;;
    '(b, d) <- (if zeqb_list header k_cmpr_file_header then r_lz4 d else r_bytes (Z.to_nat size) false d) ;;
    Ok (header, Some name, CFile b, d)
  else if zeqb_list header k_bmp_header || zeqb_list header k_cmpr_bmp_header then
    '(size, d) <- r_u32 d ;;
    '(w, d) <- r_u32 d ;;
    '(h, d) <- r_u32 d ;;
    '(bpp, d) <- r_u32 d ;;
    '(z, d) <- r_u32 d ;;
    _ <- check_ (z =? 0) ;;
    '(z, d) <- r_u32 d ;;
    _ <- check_ (z =? 0) ;;
    (* a negative size reads everything *)
    '(b, d) <- (if zeqb_list header k_cmpr_bmp_header then r_lz4 d
                else if size <? 0x14 then Err EStruct else r_bytes (Z.to_nat (size - 0x14)) false d) ;;
    c <- from_data w h bpp b ;;
    Ok (header, None, c, d)
  else if zeqb_list header k_pal_header then
    '(size, d) <- r_u32 d ;;
    _ <- check_ (size =? 3 * 256) ;;
    '(l, d) <- r_colors k_num_colors d ;;
    Ok (header, None, CPal l, d)
  else Err ECheck.
(** the loop *)
Fixpoint read_entries (n : nat) (pos : nat) (d : list Z) : res (list entry) :=
  match n with
  | O => Ok []
  | S n =>
      '(header, name, c, r) <- read_entry d ;;
      let end_pos := (pos + (length d - length r))%nat in
      es <- read_entries n end_pos r ;;
      Ok (mkentry header pos end_pos name c :: es)
  end.
(** [PodFile.__init__] and [read_all], l.213-272 *)
Definition read_pod_file (data : list Z) : res pod_file :=
  '(sig, d) <- r_bytes 4 false data ;;
  _ <- check_ (zeqb_list sig k_cpod) ;;
  '(z, d) <- r_u32 d ;;
  _ <- check_ (z =? 0x44) ;;
  '(z, d) <- r_u32 d ;;
  _ <- check_ (z =? 1) ;;
  '(_, d) <- r_zstr 32 d ;;
  '(count, d) <- r_u32 d ;;
  es <- read_entries (Z.to_nat count) 76 (skipn 28 d) ;;
  Ok (mkpod data es).

(** [shift_entry_positions], l.306-309 *)
Definition shift_up (es : list entry) (i : nat) (delta : nat) : list entry :=
  firstn i es ++ map (fun e => mkentry (e_header e) (e_pos e + delta) (e_end e + delta) (e_name e) (e_content e)) (skipn i es).
Definition shift_down (es : list entry) (i : nat) (delta : nat) : list entry :=
  firstn i es ++ map (fun e => mkentry (e_header e) (e_pos e - delta) (e_end e - delta) (e_name e) (e_content e)) (skipn i es).
(** [update_count], l.311-313 *)
Definition update_count (data : list Z) (es : list entry) : res (list Z) :=
  b <- w_u32 (zlen es) ;;
  if (length data <? 48)%nat then Err EStruct else Ok (replace_between data 44 48 b).

(** [write_bytes], l.332-338 *)
Definition write_bytes (compress : bool) (data : list Z) : res (list Z) :=
  if compress then c <- lz4_compress data true ;; n <- w_u32 (zlen c) ;; Ok (n ++ c) else Ok data.
Fixpoint write_colors (n : nat) (l : list (Z * Z * Z)) : res (list Z) :=
  match n, l with
  | O, _ => Ok []
  | S n, (r, g, b) :: l =>
      r <- w_u8 r ;; g <- w_u8 g ;; b <- w_u8 b ;; rest <- write_colors n l ;; Ok (r ++ g ++ b ++ rest)
  | S n, [] => Err EValue
  end.
(** the writing of l.340-376: the header, the bytes, and the value of [i] afterwards, which
    the loop over colors changes *)
Definition write_entry (i : nat) (name : option (list Z)) (c : content) (compress : bool) : res (list Z * list Z * nat) :=
  match c with
  | CFile b =>
      let header := if compress then k_cmpr_file_header else k_file_header in
      z <- w_u32 0 ;;
      size <- w_u32 (zlen b) ;;
      name <- match name with Some n => write_zbytes n (Some 64%nat) 1 | None => Err EType end ;;
      data <- write_bytes compress b ;;
      Ok (header, header ++ z ++ size ++ name ++ data, i)
  | CBmp w h bpp data =>
      if negb ((bpp =? 8) || (bpp =? 32)) then Err EValue else
      let header := if compress then k_cmpr_bmp_header else k_bmp_header in
      size <- w_u32 (zlen data + 0x14) ;;
      w <- w_u32 w ;;
      h <- w_u32 h ;;
      bpp <- w_u32 bpp ;;
      z <- w_u32 0 ;;
      data <- write_bytes compress data ;;
      Ok (header, header ++ size ++ w ++ h ++ bpp ++ z ++ z ++ data, i)
  | CPal l =>
      if compress then Err EAssert else
      size <- w_u32 (3 * 256) ;;
      data <- write_colors k_num_colors l ;;
      Ok (k_pal_header, k_pal_header ++ size ++ data, (k_num_colors - 1)%nat)
  end.
(** [insert_content], l.327-388 *)
Definition insert_content (p : pod_file) (i : nat) (name : option (list Z)) (c : content) (compress : bool) : res pod_file :=
  let pos := match nth_error (p_entries p) i with Some e => e_pos e | None => length (p_data p) end in
  '(header, new_data, i) <- write_entry i name c compress ;;
  let size := length new_data in
  let data := replace_between (p_data p) pos pos new_data in
  let es := list_insert (p_entries p) i (mkentry header pos (pos + size) name c) in
  let es := shift_up es (i + 1) size in
  data <- update_count data es ;;
  Ok (mkpod data es).
(** [append_content], l.390-391 *)
Definition append_content (p : pod_file) (name : option (list Z)) (c : content) (compress : bool) : res pod_file :=
  insert_content p (length (p_entries p)) name c compress.
(** [delete_content], l.393-401 *)
Definition delete_content (p : pod_file) (i : nat) : res pod_file :=
  match nth_error (p_entries p) i with
  | None => Err EIndex
  | Some e =>
      let data := replace_between (p_data p) (e_pos e) (e_end e) [] in
      let es := shift_down (list_delete (p_entries p) i) i (e_end e - e_pos e) in
      data <- update_count data es ;;
      Ok (mkpod data es)
  end.
(** [replace_content], l.403-414 *)
Definition replace_content (p : pod_file) (i : nat) (c : content) : res pod_file :=
  match nth_error (p_entries p) i with
  | None => Err EIndex
  | Some e =>
      let again := p <- delete_content p i ;; insert_content p i (e_name e) c false in
      match c, e_content e with
      | CFile new, CFile old =>
          if zeqb_list (e_header e) k_file_header && (length new =? length old)%nat then
            let pos := (e_pos e + 76)%nat in
            Ok (mkpod (replace_between (p_data p) pos (pos + length new) new)
                  (list_upd (p_entries p) i (mkentry (e_header e) (e_pos e) (e_end e) (e_name e) c)))
          else again
      | _, _ => again
      end
  end.
(** [rename_content], l.416-422 *)
Definition rename_content (p : pod_file) (i : nat) (name : list Z) : res pod_file :=
  match nth_error (p_entries p) i with
  | None => Err EIndex
  | Some e =>
      match e_content e with
      | CFile _ =>
          b <- write_zbytes name (Some 64%nat) 1 ;;
          let pos := (e_pos e + 12)%nat in
          Ok (mkpod (replace_between (p_data p) pos (pos + length b) b)
                (list_upd (p_entries p) i (mkentry (e_header e) (e_pos e) (e_end e) (Some name) (e_content e))))
      | _ => Ok p
      end
  end.
(** [PodFile.create], l.315-325 *)
Definition create_pod_file (name : list Z) : res pod_file :=
  n <- w_u32 0x44 ;;
  one <- w_u32 1 ;;
  name <- write_zbytes name (Some 32%nat) 1 ;;
  zero <- w_u32 0 ;;
  junk <- write_zbytes [] (Some 28%nat) 1 ;;
  read_pod_file (k_cpod ++ n ++ one ++ name ++ zero ++ junk).

(* ------------------------------------------------------------------ *)
(** * Pod exports *)

(** [get_carts_impl], l.582-587 *)
Fixpoint pod_carts (i : nat) (es : list entry) (d : dict (nat * list Z)) : dict (nat * list Z) :=
  match es with
  | [] => d
  | e :: es =>
      pod_carts (S i) es match e_name e, e_content e with
                         | Some (c :: n), CFile b => dset d (c :: n) (i, b)
                         | _, _ => d
                         end
  end.
Definition pod_get_carts (p : pod_file) : res (dict (nat * list Z)) := Ok (pod_carts 0 (p_entries p) []).
(** l.589-614 *)
Definition pod_read (p : pod_file) (ref : nat * list Z) : res (list Z) := Ok (snd ref).
Definition pod_insert (p : pod_file) (ref : option (nat * list Z)) (name cart : list Z) : res pod_file :=
  let i := match ref with Some (i, _) => i | None => length (p_entries p) end in
  insert_content p i (Some name) (CFile cart) false.
Definition pod_replace (p : pod_file) (ref : nat * list Z) (cart : list Z) : res pod_file :=
  let '(i, b) := ref in
  if negb (length cart =? length b)%nat then Err ECheck else replace_content p i (CFile cart).
Definition pod_delete (p : pod_file) (ref : nat * list Z) : res pod_file := delete_content p (fst ref).
Definition pod_rename (p : pod_file) (ref : nat * list Z) (name : list Z) : res pod_file := rename_content p (fst ref) name.
Definition pod_impl : impl pod_file (nat * list Z) := mkimpl _ _ pod_get_carts pod_read pod_insert pod_replace pod_delete pod_rename.
End Pod.

(* ------------------------------------------------------------------ *)
(** * Picotron system roms *)

Definition r_u32be (d : list Z) : res (Z * list Z) :=
  match d with
  | a :: b :: c :: e :: d => Ok (a * 16777216 + b * 65536 + c * 256 + e, d)
  | _ => Err EStruct
  end.
Definition w_u32be (v : Z) : res (list Z) :=
  if (0 <=? v) && (v <? 4294967296) then Ok [v / 16777216; v / 65536 mod 256; v / 256 mod 256; v mod 256] else Err EStruct.
(** [SysRom.__init__], l.23-30; each round reads four bytes, so the number of bytes is enough
    fuel *)
Fixpoint read_sysrom_loop (fuel : nat) (d : list Z) : res (list (list Z)) :=
  match d with
  | [] => Ok []
  | _ =>
      match fuel with
      | O => Err EFuel
      | S fuel =>
          '(size, d) <- r_u32be d ;;
          '(e, d) <- r_bytes (Z.to_nat size) false d ;;
          es <- read_sysrom_loop fuel d ;; Ok (e :: es)
      end
  end.
Definition read_sysrom (data : list Z) : res (list (list Z)) := read_sysrom_loop (length data) data.
(** [SysRom.get] without a directory, l.47-51; [list_get] of utils.py l.1619-1621 *)
Definition sysrom_get (es : list (list Z)) (i : nat) : option (list Z) := nth_error es i.
(** [SysRom.set], l.53-54; [list_set] of utils.py l.1627-1632 *)
Definition sysrom_set (es : list (list Z)) (i : nat) (v : list Z) : list (list Z) :=
  list_upd (es ++ repeat [] (S i - length es)) i v.
(** [SysRom.to_bytes], l.56-62 *)
Fixpoint sysrom_bytes (es : list (list Z)) : res (list Z) :=
  match es with
  | [] => Ok []
  | e :: es => n <- w_u32be (zlen e) ;; rest <- sysrom_bytes es ;; Ok (n ++ e ++ rest)
  end.
(** [SysRomIndex.cart], l.77; [SysRomExport64.get_cart] and [set_cart], l.83-91 *)
Definition sysrom_cart : nat := 2.
Definition sysrom_get_cart (version : Z) (es : list (list Z)) : res cart64 :=
  match sysrom_get es sysrom_cart with
  | None | Some [] => Err ECheck
  | Some e => read_cart64_from_rom version false e
  end.
Definition sysrom_set_cart (fast : bool) (es : list (list Z)) (cart : cart64) : res (list (list Z)) :=
  data <- write_cart64_to_rom 0 None fast cart ;; Ok (sysrom_set es sysrom_cart data).

(* ------------------------------------------------------------------ *)
(** * Picotron html exports *)

(** The search of [find_cart], l.112-116: p64cart_str, an equals sign, a quote, hexadecimal
    digits (the group), and a quote.  Text up to the group, the group, and the rest. *)
Definition k_p64cart : list Z := asc "p64cart_str="%string ++ [34].
Definition is_hexdigit (c : Z) : bool :=
  ((48 <=? c) && (c <=? 57)) || ((97 <=? c) && (c <=? 102)) || ((65 <=? c) && (c <=? 70)).
Fixpoint take_hex (s : list Z) : list Z * list Z :=
  match s with c :: t => if is_hexdigit c then let '(a, b) := take_hex t in (c :: a, b) else ([], s) | [] => ([], []) end.
Fixpoint html_find (s : list Z) : option (list Z * list Z * list Z) :=
  match (match lit k_p64cart s with
         | Some (h, r) => let '(g, z) := take_hex r in if starts_with [34] z then Some (h, g, z) else None
         | None => None
         end) with
  | Some r => Some r
  | None => match s with
            | [] => None
            | c :: t => match html_find t with Some (a, g, z) => Some (c :: a, g, z) | None => None end
            end
  end.
(** [bytes.fromhex] on digits *)
Definition hex_digit_value (c : Z) : Z := if c <? 58 then c - 48 else if c <? 97 then c - 55 else c - 87.
Fixpoint fromhex (s : list Z) : res (list Z) :=
  match s with
  | [] => Ok []
  | a :: b :: s => rest <- fromhex s ;; Ok (hex_digit_value a * 16 + hex_digit_value b :: rest)
  | _ => Err EValue
  end.
(** [HtmlExport64.get_cart] and [set_cart], l.118-124 *)
Definition html_get_rom (text : list Z) : res (list Z) :=
  match html_find text with Some (_, g, _) => fromhex g | None => Err ECheck end.
Definition html_get_cart (version : Z) (text : list Z) : res cart64 :=
  rom <- html_get_rom text ;; read_cart64_from_rom version false rom.
Definition html_set_rom (text rom : list Z) : res (list Z) :=
  match html_find text with Some (a, _, z) => Ok (a ++ concat (map hex2 rom) ++ z) | None => Err ECheck end.
Definition html_set_cart (fast : bool) (text : list Z) (cart : cart64) : res (list Z) :=
  rom <- write_cart64_to_rom 0 None fast cart ;; html_set_rom text rom.
