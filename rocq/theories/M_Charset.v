(** Model of the PICO-8 character set conversions, /repo/pico_defs.py l.161-228.
    Unicode strings are lists of code points. *)
From Verif Require Import M_Base.
Open Scope Z_scope.

(** [k_charset], l.161-178: for each PICO-8 character its one or two code points
    (transcribed mechanically from the source text; the middle part is the loop
    over range(0x20, 0x7f), l.165-166). *)
Definition charset : list (list Z) :=
  [
    [0]; [185]; [178]; [179]; [8308]; [8309]; [8310]; [8311]; [8312]; [9]; [10]; [7495]; [7580];
    [13]; [7497]; [7584]; [9646]; [9632]; [9633]; [8281]; [8280]; [8214]; [9664]; [9654]; [12300];
    [12301]; [165]; [8226]; [12289]; [12290]; [12443]; [12444]; [32]; [33]; [34]; [35]; [36]; [37];
    [38]; [39]; [40]; [41]; [42]; [43]; [44]; [45]; [46]; [47]; [48]; [49]; [50]; [51]; [52]; [53];
    [54]; [55]; [56]; [57]; [58]; [59]; [60]; [61]; [62]; [63]; [64]; [65]; [66]; [67]; [68]; [69];
    [70]; [71]; [72]; [73]; [74]; [75]; [76]; [77]; [78]; [79]; [80]; [81]; [82]; [83]; [84]; [85];
    [86]; [87]; [88]; [89]; [90]; [91]; [92]; [93]; [94]; [95]; [96]; [97]; [98]; [99]; [100];
    [101]; [102]; [103]; [104]; [105]; [106]; [107]; [108]; [109]; [110]; [111]; [112]; [113];
    [114]; [115]; [116]; [117]; [118]; [119]; [120]; [121]; [122]; [123]; [124]; [125]; [126];
    [9675]; [9608]; [9618]; [128049]; [11015; 65039]; [9617]; [10045]; [9679]; [9829]; [9737];
    [50883]; [8962]; [11013; 65039]; [128528]; [9834]; [127358; 65039]; [9670]; [8230];
    [10145; 65039]; [9733]; [10711]; [11014; 65039]; [711]; [8743]; [10062]; [9636]; [9637];
    [12354]; [12356]; [12358]; [12360]; [12362]; [12363]; [12365]; [12367]; [12369]; [12371];
    [12373]; [12375]; [12377]; [12379]; [12381]; [12383]; [12385]; [12388]; [12390]; [12392];
    [12394]; [12395]; [12396]; [12397]; [12398]; [12399]; [12402]; [12405]; [12408]; [12411];
    [12414]; [12415]; [12416]; [12417]; [12418]; [12420]; [12422]; [12424]; [12425]; [12426];
    [12427]; [12428]; [12429]; [12431]; [12434]; [12435]; [12387]; [12419]; [12421]; [12423];
    [12450]; [12452]; [12454]; [12456]; [12458]; [12459]; [12461]; [12463]; [12465]; [12467];
    [12469]; [12471]; [12473]; [12475]; [12477]; [12479]; [12481]; [12484]; [12486]; [12488];
    [12490]; [12491]; [12492]; [12493]; [12494]; [12495]; [12498]; [12501]; [12504]; [12507];
    [12510]; [12511]; [12512]; [12513]; [12514]; [12516]; [12518]; [12520]; [12521]; [12522];
    [12523]; [12524]; [12525]; [12527]; [12530]; [12531]; [12483]; [12515]; [12517]; [12519];
    [9692]; [9693]
  ].

(** [k_unicap_chars], l.184. *)
Definition unicap_chars : list (list Z) :=
  [
    [120354]; [120355]; [120356]; [120357]; [120358]; [120359]; [120360]; [120361]; [120362];
    [120363]; [120364]; [120365]; [120366]; [120367]; [120368]; [120369]; [120370]; [120371];
    [120372]; [120373]; [120374]; [120375]; [120376]; [120377]; [120378]; [120379]
  ].

(** [k_unicap_charset], l.189. *)
Definition unicap_charset : list (list Z) :=
  firstn 65 charset ++ unicap_chars ++ skipn 91 charset.

(** [k_charset_map], l.182-186: (string, PICO-8 character) pairs.  The keys are
    pairwise different (checked in L_Charset), so lookup order does not matter. *)
Fixpoint enumerate_from (i : Z) (l : list (list Z)) : list (list Z * Z) :=
  match l with [] => [] | x :: l => (x, i) :: enumerate_from (i + 1) l end.
Definition charset_map : list (list Z * Z) :=
  enumerate_from 0 charset ++ enumerate_from 65 unicap_chars.

Fixpoint lookup_str {V} (k : list Z) (m : list (list Z * V)) : option V :=
  match m with
  | [] => None
  | (x, v) :: m => if zeqb_list x k then Some v else lookup_str k m
  end.
Definition charset_get (s : list Z) : option Z := lookup_str s charset_map.

(** [ch.encode(errors="surrogateescape")] for one code point. *)
Definition utf8_encode (c : Z) : res (list Z) :=
  if c <? 0x80 then Ok [c]
  else if c <? 0x800 then Ok [0xc0 + c / 64; 0x80 + c mod 64]
  else if (0xdc80 <=? c) && (c <=? 0xdcff) then Ok [c - 0xdc00]
  else if (0xd800 <=? c) && (c <=? 0xdfff) then Err EValue
  else if c <? 0x10000 then Ok [0xe0 + c / 4096; 0x80 + (c / 64) mod 64; 0x80 + c mod 64]
  else Ok [0xf0 + c / 262144; 0x80 + (c / 4096) mod 64; 0x80 + (c / 64) mod 64; 0x80 + c mod 64].

(** [to_p8str], l.196-215: the loop with its [ignore_next] flag.
    [str_get(text, i + 1, '')] is the head of the remaining text, if any. *)
Fixpoint to_p8str_loop (ignore_next : bool) (text : list Z) : res (list Z) :=
  match text with
  | [] => Ok []
  | ch :: rest =>
      if ch <? 0x80 then r <- to_p8str_loop ignore_next rest ;; Ok (ch :: r)
      else match charset_get [ch] with
      | Some c => r <- to_p8str_loop ignore_next rest ;; Ok (c :: r)
      | None =>
          if ignore_next then to_p8str_loop false rest
          else match charset_get (ch :: firstn 1 rest) with
          | Some c => r <- to_p8str_loop true rest ;; Ok (c :: r)
          | None => b <- utf8_encode ch ;; r <- to_p8str_loop ignore_next rest ;; Ok (b ++ r)
          end
      end
  end.
Definition to_p8str (text : list Z) : res (list Z) := to_p8str_loop false text.

(** [from_p8str], l.217-220; [charset[ord(ch)]] raises IndexError above 255. *)
Definition from_p8char (unicaps : bool) (c : Z) : res (list Z) :=
  match znth (if unicaps then unicap_charset else charset) c with
  | Some s => Ok s
  | None => Err EIndex
  end.
Fixpoint from_p8str (unicaps : bool) (text : list Z) : res (list Z) :=
  match text with
  | [] => Ok []
  | c :: text => s <- from_p8char unicaps c ;; r <- from_p8str unicaps text ;; Ok (s ++ r)
  end.

(** [encode_p8str], l.222-224: [bytes(...)] raises ValueError above 255. *)
Definition encode_p8str (text : list Z) : res (list Z) :=
  if forallb is_byte text then Ok text else Err EValue.
(** [decode_p8str], l.226-228. *)
Definition decode_p8str (bytes : list Z) : list Z := bytes.
