(** C84: positions are machine words. *)
From Coq Require Import String Ascii List NArith Bool Lia.
From Verif Require Import Base Chars Reader SpecReader ReaderProofs Machine MachineProofs.
Import ListNotations.
Local Open Scope N_scope.

(** Up to 2^32 - 1 characters the width of positions cannot be seen: the run is the run
    with unbounded positions, which C01 and C02 are about, with and without checks. *)
Theorem C84_same_below_limit : forall checks src ops, N.of_nat (count_next ops) < 2 ^ 32 ->
  machine_run checks ops (reader_new src) = reader_run ops (reader_new src).
Proof. intros k src ops H. apply run_below; [split; cbn; lia|exact H]. Qed.
Print Assumptions C84_same_below_limit.

(** So the position after [k] characters is that of index [k] of the text. *)
Theorem C84_exact_below_limit : forall checks src ops, N.of_nat (length src) < 2 ^ 32 ->
  (forall n, In (RPeek n) ops -> (n < 4)%nat) -> (count_next ops <= length src)%nat ->
  exists r, machine_run checks ops (reader_new src) = Ok (fst (text_run src 0 ops), r)
    /\ reader_posn r = posn_at src (count_next ops).
Proof.
  intros k src ops H Hp Hc. destruct (reader_transparent src ops Hp) as (r & E & P).
  exists r. split; [|auto]. rewrite C84_same_below_limit by lia. exact E.
Qed.
Print Assumptions C84_exact_below_limit.

(** Without overflow checks the characters are always right and positions are right modulo
    2^32, however long the text is. *)
Theorem C84_wraps_without_checks : forall src ops, (forall n, In (RPeek n) ops -> (n < 4)%nat) ->
  (count_next ops <= length src)%nat ->
  let p := posn_at src (count_next ops) in
  exists r, machine_run false ops (reader_new src) = Ok (fst (text_run src 0 ops), r)
    /\ reader_posn r = Posn (offset p mod 2 ^ 32) (line p mod 2 ^ 32) (column p mod 2 ^ 32).
Proof.
  intros src ops Hp Hc p. destruct (reader_transparent src ops Hp) as (r & E & P).
  pose proof (run_wraps ops (reader_new src)) as W. rewrite E in W. eexists. split; [exact W|].
  unfold reader_posn in *. cbn [place curr_posn]. rewrite (P Hc). reflexivity.
Qed.
Print Assumptions C84_wraps_without_checks.

(** With overflow checks the reading of character number 2^32 panics. *)
Theorem C84_panics_with_checks : forall src ops, (forall n, In (RPeek n) ops -> (n < 4)%nat) ->
  2 ^ 32 <= N.of_nat (count_next ops) ->
  machine_run true ops (reader_new src) = Panic P_overflow.
Proof. intros src ops Hp H. apply run_at; [exact Hp|split; cbn; lia|reflexivity|exact H]. Qed.
Print Assumptions C84_panics_with_checks.

Example C84_example :
  exists r, machine_run true [RPeek 3; RNext; RNext; RNext; RNext] (reader_new (lit "a" ++ [13; 10] ++ lit "b"))
            = Ok ([Some 98; Some 97; Some 13; Some 10; Some 98], r) /\ reader_posn r = Posn 4 1 1.
Proof. eexists. vm_compute. split; reflexivity. Qed.
(** There are such long runs. *)
Example C84_long_example : exists ops, (forall n, In (RPeek n) ops -> (n < 4)%nat) /\ 2 ^ 32 <= N.of_nat (count_next ops).
Proof.
  exists (repeat RNext (N.to_nat (2 ^ 32))). split.
  - intros n H. apply repeat_spec in H. discriminate.
  - assert (E : forall n, count_next (repeat RNext n) = n) by (intros n; induction n as [|n IH]; [reflexivity|cbn; now rewrite IH]).
    rewrite E, N2Nat.id. lia.
Qed.
