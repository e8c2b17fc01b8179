(** Model of zero-terminated and zero-padded fields, /repo/utils.py l.903-945.
    [count] is the size of a character in bytes (1 or 2 in the code); the stream read
    is the list of bytes not yet read. *)
From Verif Require Import M_Base.
Open Scope Z_scope.

Definition zeros (count : nat) : list Z := repeat 0 count.

(** [BinaryReader.bytes], l.1002-1006 *)
Definition r_bytes (size : nat) (allow_eof : bool) (d : list Z) : res (list Z * list Z) :=
  let result := firstn size d in
  if (length result <? size)%nat && negb allow_eof then Err EStruct else Ok (result, skipn size d).

(** the loop of l.908-917; each round that goes on reads [count] bytes *)
Fixpoint read_z_loop (fuel count : nat) (allow_eof : bool) (result d : list Z) : res (list Z * list Z) :=
  match fuel with
  | O => Err EFuel
  | S fuel =>
      '(char, d) <- r_bytes count allow_eof d ;;
      if (length char <? count)%nat then
        match char with [] => Ok (result, d) | _ => Err EStruct end
      else if zeqb_list char (zeros count) then Ok (result, d)
      else read_z_loop fuel count allow_eof (result ++ char) d
  end.

(** [result.find(zero, offset)] *)
Fixpoint find_from (zero s : list Z) (i : nat) : option nat :=
  if zeqb_list (firstn (length zero) s) zero then Some i
  else match s with [] => None | _ :: s' => find_from zero s' (S i) end.

(** the loop of l.922-931 *)
Fixpoint cut_loop (fuel count : nat) (result : list Z) (offset : nat) : res (list Z) :=
  match fuel with
  | O => Err EFuel
  | S fuel =>
      match find_from (zeros count) (skipn offset result) offset with
      | None => Ok result
      | Some zero_i =>
          if (zero_i mod count =? 0)%nat then Ok (firstn zero_i result)
          else cut_loop fuel count result (S zero_i)
      end
  end.

(** [_read_zbytes], l.903-932 *)
Definition read_zbytes (size : option nat) (count : nat) (allow_eof : bool) (d : list Z) : res (list Z * list Z) :=
  match size with
  | None => read_z_loop (S (length d)) count allow_eof [] d
  | Some size =>
      '(result, d) <- r_bytes (size * count) allow_eof d ;;
      if (1 <? count)%nat && negb (length result mod count =? 0)%nat then Err EStruct else
      result <- cut_loop (S (length result)) count result 0 ;;
      Ok (result, d)
  end.

(** [_write_zbytes], l.934-945 *)
Definition write_zbytes (v : list Z) (size : option nat) (count : nat) : res (list Z) :=
  _ <- assert_ (negb ((1 <? count)%nat && negb (length v mod count =? 0)%nat)) ;;
  match size with
  | None => Ok (v ++ zeros count)
  | Some size =>
      if (size * count <? length v)%nat then Err EStruct
      else Ok (v ++ concat (repeat (zeros count) (size - length v / count)))
  end.
