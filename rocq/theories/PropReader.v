(** Properties of the character reader (C01, C02). *)
From Coq Require Import String Ascii List NArith Bool Lia.
From Verif Require Import Base Reader SpecReader ReaderProofs.
Import ListNotations.
Local Open Scope N_scope.

(** C01 and C02: whatever mixture of peeks (up to the capacity of the buffer) and
    reads is made on a fresh reader, every result is the one dictated by the text
    alone, and after [k] reads the position is the position of index [k]. *)
Theorem C01_reader_transparent : forall (src : str) (ops : list rop),
  (forall n, In (RPeek n) ops -> (n < 4)%nat) ->
  exists r, reader_run ops (reader_new src) = Ok (fst (text_run src 0 ops), r)
            /\ ((count_next ops <= length src)%nat ->
                reader_posn r = posn_at src (count_next ops)).
Proof. exact reader_transparent. Qed.
Print Assumptions C01_reader_transparent.

Example C01_example :
  exists r, reader_run [RPeek 3; RNext; RPeek 0; RNext; RNext; RPeek 1; RNext]
                       (reader_new (lit "a" ++ [13; 10] ++ lit "b")) =
            Ok ([Some 98; Some 97; Some 13; Some 13; Some 10; None; Some 98], r)
            /\ reader_posn r = Posn 4 1 1.
Proof. eexists. vm_compute. split; reflexivity. Qed.

(** The reader in use by the lexer behaves as the plain remaining text. *)
Theorem C01_reader_refines_peek : forall r n, (n < 4)%nat ->
  exists r', reader_peek n r = Ok (rd_peek n (abs r), r') /\ abs r' = abs r.
Proof. exact reader_refines_peek. Qed.
Print Assumptions C01_reader_refines_peek.

Theorem C01_reader_refines_next : forall r c a, rd_next (abs r) = Some (c, a) ->
  exists r', reader_next r = Ok (Some c, r') /\ abs r' = a.
Proof. exact reader_refines_next. Qed.
Print Assumptions C01_reader_refines_next.

Example C01_refines_example :
  exists c a, rd_next (abs (Reader (lit "bc") (lit "a") origin)) = Some (c, a).
Proof. eexists _, _. reflexivity. Qed.
