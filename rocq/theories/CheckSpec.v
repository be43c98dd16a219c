(** Vocabulary for the theorems about [check_equivariance]. *)
From Verif Require Export EquivSpec Equivariance.
Local Open Scope string_scope.
Local Open Scope list_scope.

(** A layer that, on samples of shape [s], treats the first axis as a batch axis: g
    batches of size b at once give the same as the g batches one after the other. *)
Definition batchwise {A} {ZA : Zero A} (s : list nat) (layer : tensor A -> result (tensor A)) : Prop :=
  forall (x : tensor A) g b, 0 < g -> wf x -> shape x = g :: b :: s ->
  match layer (read_as (g * b :: s) x) with
  | Ok y => wf y /\ exists s', shape y = g * b :: s' /\
            forall u, u < g -> layer (slice 0 u x) = Ok (slice 0 u (read_as (g :: b :: s') y))
  | Err _ => exists u e, u < g /\ layer (slice 0 u x) = Err e
  end.

(** The batch that consists of sample number [bi] of the batch [x] only. *)
Definition sample {A} {ZA : Zero A} (bi : nat) (x : tensor A) : tensor A := read_as (1 :: tl (shape x)) (slice 0 bi x).

(** A layer that treats the samples of a batch independently: whether it computes does
    not depend on the batch, and each sample of the result is what the layer computes
    for that sample alone. *)
Definition samplewise {A} {ZA : Zero A} (s : list nat) (layer : tensor A -> result (tensor A)) : Prop :=
  (exists e, forall x b, wf x -> shape x = b :: s -> layer x = Err e) \/
  (exists s', forall x b, wf x -> shape x = b :: s ->
     exists y, layer x = Ok y /\ wf y /\ shape y = b :: s' /\
       forall bi, bi < b -> layer (sample bi x) = Ok (sample bi y)).

(** Differences of values and the largest of them: the difference of two values is
    zero exactly if they are equal, and the largest of some differences is zero
    exactly if all are. *)
Definition measures_differences (A : Type) {ZA : Zero A} {MA : Metric A} : Prop :=
  (forall a b : A, absdiff a b = zero <-> a = b) /\
  (forall l : list A, l <> [] -> (forall v, In v l -> exists a b, v = absdiff a b) ->
     (largest l = zero <-> forall v, In v l -> v = zero)).

(** A signal on the subgroup [K] of [G] with group axis [ga], or on the grid ([K] is
    [None]). *)
Definition signal_on {A} (G : group) (K : option string) (sp : list nat) (ga : option nat) (x : tensor A) : Prop :=
  match K with
  | None => True
  | Some K' => exists a dom, ga = Some a /\ a < rank x /\ ~ In a sp /\ subgroup_indices G K' dom /\ nth a (shape x) 0 = List.length dom
  end.

(** The integers. *)
#[global] Instance Metric_Z : Metric Z :=
  {| absdiff := fun a b => Z.abs (a - b); largest := fun l => fold_right Z.max 0%Z l |}.

Lemma measures_Z : measures_differences Z.
Proof.
  split.
  - intros a b. cbn [absdiff Metric_Z]. unfold zero, Zero_Z. lia.
  - intros l _ NN. cbn [largest Metric_Z]. unfold zero, Zero_Z.
    assert (P : (forall v, In v l -> 0 <= v)%Z) by (intros v V; destruct (NN v V) as [a [b ->]]; cbn [absdiff Metric_Z]; lia).
    clear NN. induction l as [|w l IH]; cbn [fold_right].
    + split; [intros _ v []|reflexivity].
    + assert (Q : (fold_right Z.max 0 l = 0)%Z <-> forall v, In v l -> v = 0%Z) by (apply IH; intros v V; apply P; right; exact V).
      assert (NNl : (0 <= fold_right Z.max 0 l)%Z) by (clear; induction l; cbn [fold_right]; lia).
      pose proof (P w (or_introl eq_refl)) as Pw. split.
      * intros M v [<-|V]; [lia|]. apply Q; [lia|exact V].
      * intros M. rewrite (proj2 Q) by (intros v V; apply M; right; exact V). rewrite (M w (or_introl eq_refl)). reflexivity.
Qed.
