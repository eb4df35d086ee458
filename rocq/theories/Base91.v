(** The crate base91 0.0.1 (a dependency of /repo, its source is not in /repo):
    the basE91 encoding as published, used by fmt/prims.rs 89
    ([base91::iter_encode]) and parse/prims.rs 66 ([base91::slice_decode]).
    The bit accumulator's [|] with disjoint bits is written as addition. *)
From Verif Require Import Base.
Open Scope N_scope.

(** the alphabet of basE91 (crate base91) *)
Definition b91_alphabet : str :=
  s "ABCDEFGHIJKLMNOPQRSTUVWXYZabcdefghijklmnopqrstuvwxyz0123456789!#$%&()*+,./:;<=>?@[]^_`{|}~""".

(** the letter of a digit (crate base91) *)
Definition b91_char (i : N) : char := nth (N.to_nat i) b91_alphabet 0.
(** the place of a letter in a list *)
Fixpoint index_of (c : char) (l : str) : option N :=
  match l with
  | [] => None
  | x :: l' => if x =? c then Some 0 else option_map N.succ (index_of c l')
  end.
(** the digit of a letter (crate base91) *)
Definition b91_index (c : char) : option N := index_of c b91_alphabet.

(** accumulator [b] with [n] bits *)
Fixpoint b91_encode_from (b n : N) (bytes : list N) : str :=
  match bytes with
  | [] =>
      if 0 <? n then
        b91_char (b mod 91) :: (if (7 <? n) || (90 <? b) then [b91_char (b / 91)] else [])
      else []
  | x :: bytes' =>
      let b := b + x * 2 ^ n in
      let n := n + 8 in
      if 13 <? n then
        let '(v, l) := if 88 <? b mod 8192 then (b mod 8192, 13) else (b mod 16384, 14) in
        b91_char (v mod 91) :: b91_char (v / 91) :: b91_encode_from (b / 2 ^ l) (n - l) bytes'
      else b91_encode_from b n bytes'
  end.
(** [base91::iter_encode], called in fmt/prims.rs 89 *)
Definition b91_encode (bytes : list N) : str := b91_encode_from 0 0 bytes.

(** [do { out(b & 255); b >>= 8; n -= 8 } while n > 7]; at most [fuel] rounds,
    three suffice as n is at most 21 here *)
Fixpoint b91_drain (fuel : nat) (b n : N) : list N * (N * N) :=
  match fuel with
  | O => ([], (b, n))
  | S fuel =>
      let '(out, st) := if 7 <? n - 8 then b91_drain fuel (b / 256) (n - 8) else ([], (b / 256, n - 8)) in
      (b mod 256 :: out, st)
  end.

(** [v]: the pending first half of a pair; characters outside of the alphabet
    are skipped *)
Fixpoint b91_decode_from (b n : N) (v : option N) (t : str) : list N :=
  match t with
  | [] => match v with Some v => [(b + v * 2 ^ n) mod 256] | None => [] end
  | c :: t' =>
      match b91_index c with
      | None => b91_decode_from b n v t'
      | Some d =>
          match v with
          | None => b91_decode_from b n (Some d) t'
          | Some v =>
              let v := v + d * 91 in
              let b := b + v * 2 ^ n in
              let n := n + (if 88 <? v mod 8192 then 13 else 14) in
              let '(out, (b, n)) := b91_drain 3 b n in
              out ++ b91_decode_from b n None t'
          end
      end
  end.
(** [base91::slice_decode], called in parse/prims.rs 66 *)
Definition b91_decode (t : str) : list N := b91_decode_from 0 0 None t.

(** vectors from /repo's tests (fmt/prims.rs, parse/prims.rs) *)
Example b91_v1 : b91_encode [0; 1; 2] = s ":CQA". Proof. reflexivity. Qed.
Example b91_v2 : b91_encode [100; 150; 200; 225] = s """!Mo4". Proof. reflexivity. Qed.
Example b91_v3 : b91_encode [0; 1; 2; 5; 10; 20; 50; 100; 150; 200; 255] = s ":C!WEH#L4RHMWL". Proof. reflexivity. Qed.
Example b91_v4 : b91_decode (s "]") = [82]. Proof. reflexivity. Qed.
Example b91_v5 : b91_decode (s "],") = [143]. Proof. reflexivity. Qed.
Example b91_v6 : b91_decode (s "fdsaljfjdsa") = [110; 74; 45; 89; 50; 72; 22; 252; 52]. Proof. reflexivity. Qed.
