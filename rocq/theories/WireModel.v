(* Protocol-buffer wire format as prost writes and reads it, for the row-id
   messages of protos/rowids.proto (write_row_ids / read_row_ids,
   rust/lance-table/src/rowids/serde.rs:196-206).  prost is a dependency whose
   source is not in /repo; this file models the published proto3 encoding:
   varints, wire types 0 and 2 (the only ones these messages use), zero-valued
   scalars and empty byte strings omitted, oneof members always written, fields
   written in number order.  Decoding accepts fields in any order, the last
   scalar wins, unknown field numbers are skipped.  Wire types 1 and 5 and groups are
   decode errors here (they never occur in these messages); the merge of a
   message field that occurs twice is modelled as replacement. *)
From Coq Require Import List Arith NArith Bool Lia.
From Verif Require Import Lib RowIdsModel SerdeModel.
Import ListNotations.
Local Open Scope nat_scope.

(* prost::encoding::encode_varint; fuel 10 covers u64 *)
Fixpoint varint (fuel : nat) (v : N) : list N :=
  match fuel with
  | O => []
  | S f => if (v <? 128)%N then [v] else (v mod 128 + 128)%N :: varint f (v / 128)%N
  end.

(* prost::encoding::decode_varint: at most 10 bytes, value must fit u64 *)
Fixpoint unvarint (fuel : nat) (l : list N) : option (N * list N) :=
  match fuel, l with
  | S f, b :: t =>
      if (b <? 128)%N then Some (b, t)
      else match unvarint f t with
           | Some (v, r) => Some (b - 128 + 128 * v, r)%N
           | None => None
           end
  | _, _ => None
  end.
Definition enc_varint (v : N) : list N := varint 10 v.
Definition dec_varint (l : list N) : option (N * list N) :=
  match unvarint 10 l with
  | Some (v, r) => if (v <? two64)%N then Some (v, r) else None
  | None => None
  end.

(* a field: number and payload *)
Inductive wval := WInt (v : N) | WBytes (b : list N).
Definition field := (N * wval)%type.

Definition enc_field (f : field) : list N :=
  match f with
  | (n, WInt v) => enc_varint (n * 8) ++ enc_varint v
  | (n, WBytes b) => enc_varint (n * 8 + 2) ++ enc_varint (N.of_nat (length b)) ++ b
  end.
Definition enc_fields (l : list field) : list N := flat_map enc_field l.

(* decode_key + payload by wire type *)
Definition dec_field (l : list N) : option (field * list N) :=
  match dec_varint l with
  | None => None
  | Some (key, r) =>
      if (key / 8 =? 0)%N then None else
      if (key mod 8 =? 0)%N then
        match dec_varint r with Some (v, r') => Some ((key / 8, WInt v)%N, r') | None => None end
      else if (key mod 8 =? 2)%N then
        match dec_varint r with
        | Some (n, r') => if length r' <? N.to_nat n then None
                          else Some ((key / 8, WBytes (firstn (N.to_nat n) r'))%N, skipn (N.to_nat n) r')
        | None => None
        end
      else None
  end.
Fixpoint dec_fields (fuel : nat) (l : list N) : option (list field) :=
  match l with
  | [] => Some []
  | _ => match fuel with
         | O => None
         | S f => match dec_field l with
                  | Some (x, r) => omap (cons x) (dec_fields f r)
                  | None => None
                  end
         end
  end.
Definition parse (l : list N) : option (list field) := dec_fields (length l) l.

(* writers of singular fields: proto3 default values are omitted *)
Definition w_u64 (n v : N) : list field := if (v =? 0)%N then [] else [(n, WInt v)].
Definition w_bytes (n : N) (b : list N) : list field := match b with [] => [] | _ => [(n, WBytes b)] end.
Definition w_msg (n : N) (b : list N) : list field := [(n, WBytes b)].

(* readers: the last occurrence wins; a wrong wire type is a decode error = None *)
Fixpoint r_u64 (n : N) (acc : N) (l : list field) : option N :=
  match l with
  | [] => Some acc
  | (m, v) :: t => if (m =? n)%N then match v with WInt x => r_u64 n x t | _ => None end else r_u64 n acc t
  end.
Fixpoint r_bytes (n : N) (acc : option (list N)) (l : list field) : option (option (list N)) :=
  match l with
  | [] => Some acc
  | (m, v) :: t => if (m =? n)%N then match v with WBytes x => r_bytes n (Some x) t | _ => None end else r_bytes n acc t
  end.
(* the last member of a oneof with field numbers 1..k *)
Fixpoint r_oneof (k : N) (acc : option (N * list N)) (l : list field) : option (option (N * list N)) :=
  match l with
  | [] => Some acc
  | (m, v) :: t => if ((1 <=? m) && (m <=? k))%N
                   then match v with WBytes x => r_oneof k (Some (m, x)) t | _ => None end
                   else r_oneof k acc t
  end.

Definition orempty (o : option (list N)) : list N := match o with Some b => b | None => [] end.

(** * messages of protos/rowids.proto *)

(* U16Array/U32Array {base = 1; offsets = 2}, U64Array {values = 2}; EncodedU64Array oneof 1..3 *)
Definition arr_bytes (p : option pb_arr) : list N :=
  match p with
  | None => []
  | Some (PU16 b o) => enc_fields (w_msg 1 (enc_fields (w_u64 1 b ++ w_bytes 2 o)))
  | Some (PU32 b o) => enc_fields (w_msg 2 (enc_fields (w_u64 1 b ++ w_bytes 2 o)))
  | Some (PU64 v) => enc_fields (w_msg 3 (enc_fields (w_bytes 2 v)))
  end.
Definition arr_parse (l : list N) : option (option pb_arr) :=
  obind (parse l) (fun fs =>
  obind (r_oneof 3 None fs) (fun o =>
  match o with
  | None => Some None
  | Some (k, b) =>
      obind (parse b) (fun fs =>
      if (k =? 3)%N then obind (r_bytes 2 None fs) (fun v => Some (Some (PU64 (orempty v))))
      else obind (r_u64 1 0 fs) (fun base => obind (r_bytes 2 None fs) (fun v =>
           Some (Some ((if (k =? 1)%N then PU16 else PU32) base (orempty v))))))
  end)).

Definition opt_msg (n : N) (o : option (option pb_arr)) : list field :=
  match o with None => [] | Some a => w_msg n (arr_bytes a) end.

(* U64Segment oneof: range 1, range_with_holes 2, range_with_bitmap 3, sorted_array 4, array 5 *)
Definition seg_bytes (p : option pb_seg) : list N :=
  match p with
  | None => []
  | Some (PSRange a b) => enc_fields (w_msg 1 (enc_fields (w_u64 1 a ++ w_u64 2 b)))
  | Some (PSHoles a b h) => enc_fields (w_msg 2 (enc_fields (w_u64 1 a ++ w_u64 2 b ++ opt_msg 3 h)))
  | Some (PSBitmap a b d) => enc_fields (w_msg 3 (enc_fields (w_u64 1 a ++ w_u64 2 b ++ w_bytes 3 d)))
  | Some (PSSorted x) => enc_fields (w_msg 4 (arr_bytes x))
  | Some (PSArr x) => enc_fields (w_msg 5 (arr_bytes x))
  end.
Definition seg_parse (l : list N) : option (option pb_seg) :=
  obind (parse l) (fun fs =>
  obind (r_oneof 5 None fs) (fun o =>
  match o with
  | None => Some None
  | Some (k, b) =>
      if (k =? 4)%N then omap (fun x => Some (PSSorted x)) (arr_parse b) else
      if (k =? 5)%N then omap (fun x => Some (PSArr x)) (arr_parse b) else
      obind (parse b) (fun fs =>
      obind (r_u64 1 0 fs) (fun a => obind (r_u64 2 0 fs) (fun e => obind (r_bytes 3 None fs) (fun d =>
      if (k =? 1)%N then Some (Some (PSRange a e)) else
      if (k =? 2)%N then
        match d with
        | None => Some (Some (PSHoles a e None))
        | Some h => omap (fun x => Some (PSHoles a e (Some x))) (arr_parse h)
        end
      else Some (Some (PSBitmap a e (orempty d)))))))
  end)).

(* RowIdSequence {repeated U64Segment segments = 1}; serde.rs:196-206 *)
Definition write_row_ids (q : rowseq) : list N :=
  enc_fields (flat_map (fun s => w_msg 1 (seg_bytes s)) (seq_encode q)).

Fixpoint r_repeated (n : N) (l : list field) : option (list (list N)) :=
  match l with
  | [] => Some []
  | (m, v) :: t => if (m =? n)%N then match v with WBytes x => omap (cons x) (r_repeated n t) | _ => None end
                   else r_repeated n t
  end.
Definition read_row_ids (l : list N) : option rowseq :=
  obind (parse l) (fun fs => obind (r_repeated 1 fs) (fun ms =>
  obind (sequence_opt (map seg_parse ms)) seq_decode)).
