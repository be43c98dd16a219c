(** The group P1 acts in every dimension. *)
From Verif Require Import Properties_Padding Properties_Config Properties_Layers Properties_Build Properties_TransposedBuild.
From Verif Require Export SliceFacts ShapeFacts BuildTheorems.
Local Open Scope string_scope.
Local Open Scope list_scope.

Lemma P1_in_dict : dict_get group_dict "P1" = Ok P1.
Proof. unfold group_dict, wallpaper_group_dict. cbn [app dict_get]. reflexivity. Qed.

Lemma P1_parts : g_name P1 = "P1" /\ g_order P1 = 1 /\ g_composition P1 = mkTensor [1; 1] [0] /\ g_inverses P1 = [0] /\
  g_subgroup P1 = [("P1", [0])] /\ g_cosets P1 = [("P1", [0])].
Proof. vm_compute. repeat split. Qed.

Lemma after_identity d : after (identity d) (identity d) = identity d.
Proof.
  unfold after, identity. rewrite map_map. apply map_ext_in. intros m M. apply in_seq in M.
  pose proof (map_nth (fun m : nat => (m, false)) (seq 0 d) 0 m) as Q. cbv beta in Q.
  rewrite Q, seq_nth by lia. reflexivity.
Qed.

Lemma P1_everywhere d : group_ok P1 d [identity d] false.
Proof.
  destruct P1_parts as [PN [PO [PC [PI [PS PK]]]]].
  assert (Z1 : forall a, a < 1 -> a = 0) by (intros; lia).
  assert (CO : comp P1 0 0 = 0) by (vm_compute; reflexivity).
  assert (IO : inv P1 0 = 0) by (vm_compute; reflexivity).
  split; cbn [List.length].
  - exact PO.
  - lia.
  - intros a Ha. apply Z1 in Ha as ->. cbn [nth]. split; [unfold identity; rewrite map_length; apply seq_length|].
    intros p Hp. unfold identity. rewrite map_map. cbn [fst]. rewrite map_id. apply in_seq. lia.
  - apply NoDup_cons; [intros []|apply NoDup_nil].
  - reflexivity.
  - rewrite PC. reflexivity.
  - rewrite PC. reflexivity.
  - intros a b Ha Hb. apply Z1 in Ha as ->. apply Z1 in Hb as ->. rewrite CO. split; [lia|]. cbn [nth]. symmetry. apply after_identity.
  - rewrite PI. reflexivity.
  - intros a Ha. apply Z1 in Ha as ->. rewrite IO, CO. split; [lia|split; reflexivity].
  - rewrite PS, PN. intros name idx D. cbn [dict_get] in D. destruct (String.eqb_spec name "P1") as [->|N]; [|discriminate D].
    assert (idx = [0]) as -> by congruence.
    split; [apply NoDup_cons; [intros []|apply NoDup_nil]|]. split; [intros a [<-|[]]; lia|]. split; [reflexivity|]. split; [intros _; vm_compute; reflexivity|].
    split; [reflexivity|]. split; [intros a b [<-|[]] [<-|[]]; rewrite IO, CO; left; reflexivity|].
    intros _ EE. assert (DD : dimension_of "P1" = d).
    { apply (f_equal (fun e => List.length (nth 0 e []))) in EE. cbn [nth] in EE. unfold identity in EE. rewrite map_length, seq_length in EE. rewrite EE. vm_compute. reflexivity. }
    split; [exact DD|]. cbn [map nth]. rewrite <- DD. vm_compute. reflexivity.
  - rewrite PS, PN. reflexivity.
  - rewrite PS, PK. intros name idx D. cbn [dict_get] in D. destruct (String.eqb_spec name "P1") as [->|N]; [|discriminate D].
    assert (idx = [0]) as -> by congruence. exists [0]. split; [reflexivity|]. split; [apply NoDup_cons; [intros []|apply NoDup_nil]|].
    split; [intros a [<-|[]]; lia|]. split; [|reflexivity]. intros g Hg. apply Z1 in Hg as ->. exists 0, 0. split; [left; reflexivity|]. split; [left; reflexivity|exact CO].
  - intros A ZA s f k sp K SP _. rewrite P1_action_eq. unfold P1_action. rewrite expand_dims_tab by exact K. f_equal. apply stk_ext; [exact K|].
    intros g i Hg I. apply Z1 in Hg as ->. cbn [nth]. f_equal. symmetry. destruct SP as [L [ND [B _]]]. apply pixel_at_identity; assumption.
  - intros; discriminate.
  - intros _ a n Ha. apply Z1 in Ha as ->. cbn [nth]. intros m M. unfold identity in *. rewrite map_length, seq_length in M.
    pose proof (map_nth (fun m : nat => (m, false)) (seq 0 d) 0 m) as Q. cbv beta in Q. rewrite Q, seq_nth by lia. reflexivity.
Qed.
