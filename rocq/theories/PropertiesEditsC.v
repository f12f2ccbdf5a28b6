(** Which rotations the C interface accepts: C140, continued. *)
From Coq Require Import String NArith ZArith Bool Arith Lia Strings.Byte List.
From Verif Require PropertiesFfiBlocks.
From Verif Require Import Prelude Field Msp Spec Bilinear Scheme SchemeSpec SchemeTheorems Zp ExpModel PropertiesScheme
  Codec CodecProofs Policy PolicySpec PolicyProofs Engine EngineSpec PropertiesEngine PropertiesHybrid Ffi FfiSpec PropertiesFfi PropertiesEdits.
Import ListNotations.

(** A caller who offers a buffer that is large enough for the text of the result gets it exactly when
    all listed attributes are known and there is a value for each rotation. Otherwise 1 is returned
    and the buffer and its length are left as they were. *)
Theorem C140_c P policy_from attributes_from policy_text n ops p l attrs pol o :
  (32 <= usize_bits P)%N -> attributes_from attrs = Ok l -> policy_from pol = Ok p -> run_ops ops (new_policy n) = Ok p ->
  offered o -> (forall q, run_ops (ops ++ map Rotate l) (new_policy n) = Ok q -> room (policy_text q) o) ->
  let result := h_rotate_attributes P policy_from attributes_from policy_text (Some attrs) (Some pol) [o] in
  let possible := (forall a, In a l -> declared ops a) /\ values_taken ops + length l <= N.to_nat n in
  (possible -> exists q o', run_ops (ops ++ map Rotate l) (new_policy n) = Ok q /\ result = Go tt [o'] /\ delivered (policy_text q) o o') /\
  (~ possible -> exists e, result = Bail e [o]).
Proof.
  intros HP El Ep Hp Ho Hr result possible. pose proof (C140_rotations n ops p l Hp) as A. fold possible in A.
  assert (S : run_ops (ops ++ map Rotate l) (new_policy n) = run_ops (map Rotate l) p) by (rewrite PropertiesEdits.run_ops_app, Hp; reflexivity).
  rewrite S in *. unfold result, h_rotate_attributes, andthen.
  rewrite (check_offered 0 "new policy" [o] o eq_refl Ho). cbn [not_null]. unfold ret, unwrap. rewrite El, Ep, PropertiesFfiBlocks.rotate_all_ops.
  pose proof (PropertiesFfiBlocks.rotate_all_no_panic l p) as NP. rewrite PropertiesFfiBlocks.rotate_all_ops in NP.
  destruct (run_ops (map Rotate l) p) as [q|e|q].
  - split; [intros _|intros H; exfalso; apply H, A; eexists; reflexivity].
    destruct Ho as (len & (Hg & Hm & _) & _).
    destruct (deliver_room P 0 (policy_text q) [o] o HP eq_refl Hg Hm (Hr q eq_refl)) as (o' & E & D).
    exists q, o'. split; [reflexivity|]. split; [exact E|exact D].
  - split; [intros H; apply A in H as (x & H); discriminate|intros _; eexists; reflexivity].
  - exfalso. exact (NP q eq_refl).
Qed.

(** ** Example *)
(** three rotations in the policy of ten values of which seven are taken, and a fourth one *)
Example C140_c_example : forall x : byte,
  offered (room_for 10) /\ (forall q, room (PropertiesFfiBlocks.c_text q) (room_for 10)) /\
  map read_out (outs_of (h_rotate_attributes pf (fun _ => Ok pol_a) some_hr PropertiesFfiBlocks.c_text (Some [x; x; x]) (Some []) [room_for 10])) = [be32 10] /\
  h_rotate_attributes pf (fun _ => Ok pol_a) some_hr PropertiesFfiBlocks.c_text (Some [x; x; x; x]) (Some []) [room_for 10]
    = Bail (Wrapped (PolicyError PolicyCapacityOverflow)) [room_for 10].
Proof.
  intros x. split.
  { exists 10%Z. split; [|lia]. split; [|split; [discriminate|reflexivity]].
    exists 10%Z. split; [reflexivity|]. split; [unfold i32_range, i32_min, i32_max; lia|]. intros mem E. injection E as <-. vm_compute. intuition congruence. }
  split; [intros q; exists 10%Z; split; [reflexivity|cbn; lia]|].
  split; vm_compute; reflexivity.
Qed.

Print Assumptions C140_c.
