(** Model of the generic operations of include/stdex/stream.hpp: class basic (84-773).

    A stream is an arbitrary state type with the virtual operations read and write and the state flag;
    [dev] collects them.  d_read s n returns the bytes stored in the caller's buffer; d_write s b
    returns the number of bytes written.  Sizes are nat (64-bit size_t; where the code can overflow,
    the check is modelled).  Allocation failures (std::bad_alloc in the scratch buffers) are not
    modelled.  A loop that runs out of its fuel yields [UB]; the theorems show it does not happen. *)
From Verif Require Import Base.

(** stream.hpp:63-67 *)
Inductive sstate : Type := StOk | StEof | StFail.
Definition is_ok (s : sstate) : bool := match s with StOk => true | _ => false end.

(** stream.hpp:102-128 (read, write), 176 (state), m_state *)
Record dev (S : Type) : Type := Dev {
  d_read : S -> nat -> S * list Z;
  d_write : S -> list Z -> S * nat;
  d_state : S -> sstate;
  d_set : S -> sstate -> S }.
Arguments Dev {S}. Arguments d_read {S}. Arguments d_write {S}. Arguments d_state {S}. Arguments d_set {S}.
Definition d_ok {S} (D : dev S) (s : S) : bool := is_ok (d_state D s).

(** stream.hpp:75-76 *)
Definition iterate_count : nat := 16.
Definition default_block_size : nat := Z.to_nat 65536.

(** little-endian bytes of a value (the host is little-endian, so LE2HE and HE2LE are the identity
    and memory order is this order) *)
Fixpoint le_bytes (n : nat) (v : Z) : list Z :=
  match n with O => [] | S k => v mod 256 :: le_bytes k (v / 256) end.
Fixpoint le_value (b : list Z) : Z :=
  match b with [] => 0 | x :: r => x + 256 * le_value r end.

Section Basic.
Context {S : Type} (D : dev S).

(** stream.hpp:378-386: the bytes read before the loop ends *)
Fixpoint read_loop (fuel : nat) (s : S) (to_read : nat) : outcome (S * list Z) :=
  match fuel with
  | O => UB
  | Datatypes.S f =>
      let '(s', b) := d_read D s to_read in
      let left := (to_read - length b)%nat in
      if (left =? 0)%nat then Ret (s', b)
      else if negb (d_ok D s') then Ret (s', b)
      else let* (s2, b2) := read_loop f s' left in Ret (s2, b ++ b2)
  end.
(** stream.hpp:376-387: the bytes stored and the number returned; mul throws on overflow *)
Definition read_array (s : S) (size count : nat) : outcome (S * list Z * nat) :=
  if M64 <=? Z.of_nat size * Z.of_nat count then Throw
  else
    let total := (size * count)%nat in
    let* (s', b) := read_loop (Datatypes.S total) s total in
    let left := (total - length b)%nat in
    if (left =? 0)%nat then Ret (s', b, count) else Ret (s', b, (count - left / size)%nat).

(** stream.hpp:216-222 *)
Definition read_byte (s : S) : outcome (S * Z) :=
  let* (s', b, n) := read_array s 1 1 in
  if (n =? 1)%nat then match b with x :: _ => Ret (s', x) | [] => UB end else Throw.

(** stream.hpp:153-157 *)
Fixpoint skip_bytes (n : nat) (s : S) : outcome S :=
  match n with
  | O => Ret s
  | Datatypes.S k => let* (s', _) := read_byte s in if d_ok D s' then skip_bytes k s' else Ret s'
  end.
(** stream.hpp:163-167 *)
Fixpoint skip_blocks (fuel : nat) (s : S) (amount block : nat) : outcome S :=
  match fuel with
  | O => UB
  | Datatypes.S f =>
      if (amount =? 0)%nat then Ret s
      else let* (s', b, n) := read_array s 1 (Nat.min amount block) in
           if d_ok D s' then skip_blocks f s' (amount - n) block else Ret s'
  end.
(** stream.hpp:148-171 *)
Definition skip (s : S) (amount : nat) : outcome S :=
  if (amount =? 1)%nat then let* (s', _) := read_byte s in Ret s'
  else if (amount <? iterate_count)%nat then skip_bytes amount s
  else skip_blocks (Datatypes.S amount) s amount (Nat.min amount default_block_size).

(** stream.hpp:195-208; [acc] is the first [offset] bytes of result *)
Fixpoint remainder_loop (fuel : nat) (s : S) (acc : list Z) (len max : nat) : outcome (S * list Z) :=
  match fuel with
  | O => UB
  | Datatypes.S f =>
      let offset := length acc in
      if (offset <? max)%nat then
        let len := Nat.min len max in
        let* (s', b, n) := read_array s 1 (len - offset) in
        if d_ok D s' then remainder_loop f s' (acc ++ b) (len + default_block_size) max
        else Ret (s', acc ++ b)
      else Ret (s, acc)
  end.
(** stream.hpp:190-211 *)
Definition read_remainder (fuel : nat) (s : S) (max : nat) : outcome (S * list Z) :=
  remainder_loop fuel s [] default_block_size max.

(** stream.hpp:232-235 *)
Fixpoint write_bytes (n : nat) (s : S) (byte : Z) : outcome S :=
  match n with
  | O => Ret s
  | Datatypes.S k => let '(s', _) := d_write D s [byte] in if d_ok D s' then write_bytes k s' byte else Ret s'
  end.
(** stream.hpp:394-397 *)
Definition write_array (s : S) (data : list Z) (size count : nat) : outcome (S * nat) :=
  if M64 <=? Z.of_nat size * Z.of_nat count then Throw
  else let '(s', n) := d_write D s (firstn (size * count) data) in Ret (s', (n / size)%nat).
(** stream.hpp:243-247 *)
Fixpoint write_blocks (fuel : nat) (s : S) (byte : Z) (amount block : nat) : outcome S :=
  match fuel with
  | O => UB
  | Datatypes.S f =>
      if (amount =? 0)%nat then Ret s
      else let* (s', n) := write_array s (repeat byte block) 1 (Nat.min amount block) in
           if d_ok D s' then write_blocks f s' byte (amount - n) block else Ret s'
  end.
(** stream.hpp:227-251 *)
Definition write_byte (s : S) (byte : Z) (amount : nat) : outcome S :=
  if (amount =? 1)%nat then Ret (fst (d_write D s [byte]))
  else if (amount <? iterate_count)%nat then write_bytes amount s byte
  else write_blocks (Datatypes.S amount) s byte amount (Nat.min amount default_block_size).

(** stream.hpp:265-279 for an unsigned T of [width] bytes; [init] is what data held before *)
Definition read_data (s : S) (width : nat) (init : list Z) : outcome (S * Z) :=
  if negb (d_ok D s) then Ret (s, 0)
  else let* (s', b, n) := read_array s width 1 in
       if (n =? 1)%nat then Ret (s', le_value (firstn width (b ++ skipn (length b) init)))
       else Ret (if d_ok D s' then d_set D s' StEof else s', 0).
(** stream.hpp:293-304 *)
Definition write_data (s : S) (width : nat) (v : Z) : outcome S :=
  if negb (d_ok D s) then Ret s else Ret (fst (d_write D s (le_bytes width v))).

(** stream.hpp:340-353 for units of [width] bytes; previous and chr are values *)
Fixpoint readln_loop (fuel : nat) (s : S) (width : nat) (initial : bool) (chr previous : Z) (str : list Z) : outcome (S * list Z) :=
  match fuel with
  | O => UB
  | Datatypes.S f =>
      let* (s', b, _) := read_array s width 1 in
      let chr := le_value (b ++ skipn (length b) (le_bytes width chr)) in
      let str := if negb initial && negb ((previous =? 13) && (chr =? 10)) then str ++ [previous] else str in
      if d_ok D s' && negb (chr =? 10) then readln_loop f s' width false chr chr str
      else Ret (s', str)
  end.
Definition readln_and_attach (fuel : nat) (s : S) (width : nat) (str : list Z) : outcome (S * list Z) :=
  readln_loop fuel s width true 0 0 str.

(** [n] values of [width] bytes *)
Fixpoint units_of (n width : nat) (b : list Z) : list Z :=
  match n with O => [] | Datatypes.S k => le_value (firstn width b) :: units_of k width (skipn width b) end.
(** stream.hpp:481-489; buf keeps what was in it ([junk]) *)
Fixpoint read_str_loop (fuel : nat) (s : S) (width num_chars : nat) (junk data : list Z) : outcome (S * list Z) :=
  match fuel with
  | O => UB
  | Datatypes.S f =>
      let* (s', b, n) := read_array s width (Nat.min num_chars 1024) in
      let buf := b ++ skipn (length b) junk in
      let data := data ++ units_of n width buf in
      let left := (num_chars - n)%nat in
      if (left =? 0)%nat || negb (d_ok D s') then Ret (s', data) else read_str_loop f s' width left buf data
  end.
(** stream.hpp:471-490; units are unsigned values of [width] bytes *)
Definition read_str (s : S) (width : nat) (init junk : list Z) : outcome (S * list Z) :=
  if negb (d_ok D s) then Ret (s, [])
  else let* (s', n) := read_data s 4 init in
       if negb (d_ok D s') then Ret (s', [])
       else read_str_loop (Datatypes.S (Z.to_nat n)) s' width (Z.to_nat n) junk [].
(** stream.hpp:528-540 (504-516 for zero-terminated strings) *)
Definition write_str (s : S) (width : nat) (str : list Z) : outcome S :=
  if 4294967295 <? Z.of_nat (length str) then Throw
  else let* s' := write_data s 4 (Z.of_nat (length str)) in
       if negb (d_ok D s') then Ret s'
       else let* (s2, _) := write_array s' (flat_map (le_bytes width) str) width (length str) in Ret s2.

(** stream.hpp:673-682 operator<< of std::vector<T>; T is written with write_data *)
Fixpoint write_each (s : S) (width : nat) (l : list Z) : outcome S :=
  match l with [] => Ret s | v :: r => let* s' := write_data s width v in write_each s' width r end.
Definition write_vector (s : S) (width : nat) (l : list Z) : outcome S :=
  if 4294967295 <? Z.of_nat (length l) then Throw
  else let* s' := write_data s 4 (Z.of_nat (length l)) in write_each s' width l.
(** stream.hpp:684-701 operator>> of std::vector<T>: after the last element the function flows off its
    end without returning a value, which is undefined behaviour *)
Fixpoint read_each (n : nat) (s : S) (width : nat) (data : list Z) : outcome (S * list Z) :=
  match n with
  | O => UB
  | Datatypes.S k => let* (s', v) := read_data s width [] in
                     if negb (d_ok D s') then Ret (s', data) else read_each k s' width (data ++ [v])
  end.
Definition read_vector (s : S) (width : nat) : outcome (S * list Z) :=
  let* (s', n) := read_data s 4 [] in
  if negb (d_ok D s') then Ret (s', []) else read_each (Z.to_nat n) s' width [].
End Basic.

(** stream.hpp:560-580: the stream D copies from the stream E.  Outcome: states and bytes copied. *)
Fixpoint copy_loop {A B : Type} (D : dev A) (E : dev B) (fuel : nat) (a : A) (b : B) (copied to_write : nat) : outcome (A * B * nat) :=
  match fuel with
  | O => UB
  | S f =>
      if (to_write =? 0)%nat then Ret (a, b, copied)
      else
        let '(b', data) := d_read E b (Nat.min default_block_size to_write) in
        let '(a', n) := d_write D a data in
        match d_state E b' with
        | StEof => Ret (d_set D a' StOk, b', (copied + n)%nat)
        | st => let a2 := d_set D a' st in
                if negb (d_ok D a2) then Ret (a2, b', (copied + n)%nat)
                else copy_loop D E f a2 b' (copied + n) (to_write - n)
        end
  end.
Definition write_stream {A B : Type} (D : dev A) (E : dev B) (fuel : nat) (a : A) (b : B) (amount : nat) : outcome (A * B * nat) :=
  copy_loop D E fuel (d_set D a StOk) b 0 amount.
