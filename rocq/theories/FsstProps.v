(* C133: FSST compression of strings is lossless. *)
From Coq Require Import List Arith NArith ZArith Bool Permutation Sorted.
From Verif Require Import Lib PageModel FsstModel FsstTable FsstProofs.
Import ListNotations.
Local Open Scope nat_scope.

Theorem C133_lossless : forall h order count term least tbl buf offs tbl' out oo, (forall l s, In s (order l) -> In s l) -> Forall (fun b => b < 256) buf ->
  compress h least (build h order count term) tbl buf offs = Some (tbl', out, oo) ->
  length (strings_of out oo) = length (strings_of buf offs) /\
  forall out2 oo2 sel, Forall (fun i => i < length (strings_of buf offs)) sel -> strings_of out2 oo2 = map (fun i => nth i (strings_of out oo) []) sel -> oo2 <> [] ->
  exists b o, decompress tbl' out2 oo2 = Some (b, o) /\ strings_of b o = map (fun i => nth i (strings_of buf offs) []) sel.
Proof. exact @fsst_lossless. Qed.
Print Assumptions C133_lossless.

Theorem C133_roundtrip : forall h order count term least tbl buf offs tbl' out oo, (forall l s, In s (order l) -> In s l) -> Forall (fun b => b < 256) buf -> offs <> [] ->
  compress h least (build h order count term) tbl buf offs = Some (tbl', out, oo) -> exists b o, decompress tbl' out oo = Some (b, o) /\ strings_of b o = strings_of buf offs.
Proof. exact @fsst_roundtrip. Qed.
Print Assumptions C133_roundtrip.

Theorem C133_tables_sound : forall h order count term f, (forall l s, In s (order l) -> In s l) -> build h order count term = Some f -> good_f f /\ 0 < f_n f.
Proof. exact @build_good. Qed.
Print Assumptions C133_tables_sound.

Theorem C133_compress_room : forall h order count term f s, (forall l x, In x (order l) -> In x l) -> build h order count term = Some f -> Forall (fun b => b < 256) s -> length (encode_string h f s) <= 2 * length s.
Proof. exact @compress_room. Qed.
Print Assumptions C133_compress_room.

Theorem C133_decompress_room : forall tbl d l fuel o, init_decoder tbl = Some d -> decode_string fuel d l = Some o -> length o <= 8 * length l.
Proof. exact @decompress_room. Qed.
Print Assumptions C133_decompress_room.
