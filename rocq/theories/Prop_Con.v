(** C91: AdjustContrastv2, tf2onnx/onnx_opset/nn.py:1521-1538 (model: ConModel, specification: ConSpec). *)
From Coq Require Import Reals List Arith ZArith Bool Lia Lra.
From Verif Require Import Tensor FoldModel OnnxSpec TOps BnSpec BnProofs ConSpec ConModel ConProofs.
Import ListNotations.
Local Open Scope R_scope.
Local Open Scope list_scope.

(** For images in any number of dimensions from three on, of the type of the factor and of known rank: the graph changes their contrast like TensorFlow *)
Theorem C91_contrast_partial lead h w c x factor : wf x -> shape x = lead ++ [h; w; c] ->
  exists y, adjust_contrast true (Some (length (shape x))) x (Tensor [] [factor]) = Some y /\ tf_adjust_contrast lead h w c x factor y.
Proof.
  intros W Sx. set (f := fun p i j k => match get x (p ++ [i; j; k]) with Some v => v | None => 0 end).
  assert (H : Is3 lead h w c x f).
  { split; [exact W|]. split; [exact Sx|]. intros p i j k Hp Hi Hj Hk. unfold f. destruct (get x (p ++ [i; j; k])) eqn:E; [reflexivity|]. exfalso. revert E.
    apply TOpsProofs.get_some; [exact W|]. rewrite Sx. apply inb3; auto. }
  unfold adjust_contrast. cbn [negb]. rewrite Sx. destruct (mean_ok lead h w c x f H) as (u & -> & Su & Gu). cbn [obind].
  destruct (bin3_mean lead h w c Rminus x f u _ H Su Gu) as (d & -> & Hd). cbn [obind]. destruct (bin3_scalar lead h w c Rmult d _ factor Hd) as (s & -> & Hs). cbn [obind].
  destruct (bin3_mean lead h w c Rplus s _ u _ Hs Su Gu) as (y & -> & Wy & Sy & Gy). exists y. split; [reflexivity|].
  split; [exact W|]. split; [exact Wy|]. split; [exact Sx|]. split; [now rewrite Sy, Sx|]. destruct H as (_ & _ & G).
  intros p k Hp Hk. exists (pixels h w f p k). split.
  - unfold pixels. assert (Q : forall l, (forall ij, In ij l -> (fst ij < h)%nat /\ (snd ij < w)%nat) -> Forall2 (fun ij v => get x (p ++ [fst ij; snd ij; k]) = Some v) l (map (fun ij => f p (fst ij) (snd ij) k) l)).
    { induction l as [|ij l IH]; intro K; constructor; [|apply IH; intros; apply K; now right]. destruct (K ij (or_introl eq_refl)). apply G; auto. }
    apply Q. intros [i j] I. apply in_prod_iff in I. destruct I as [I J]. apply in_seq in I, J. cbn. lia.
  - intros mean i j Hi Hj. exists (f p i j k). split; [now apply G|]. now apply Gy.
Qed.
Print Assumptions C91_contrast_partial.

(** one image of 1 x 2 pixels, two channels *)
Definition image : tensor R := Tensor [1; 2; 2]%nat [1; 4; 3; 8].
Example image_case : exists y, adjust_contrast true (Some 3%nat) image (Tensor [] [2]) = Some y /\ get y [0; 0; 0]%nat = Some 0 /\ get y [0; 1; 1]%nat = Some 10.
Proof.
  destruct (C91_contrast_partial [] 1 2 2 image 2 eq_refl eq_refl) as (y & E & _ & _ & _ & _ & G). exists y. split; [exact E|]. split.
  - destruct (G [] 0%nat Logic.I ltac:(lia)) as (ps & F & M). cbv zeta in M. cbn in F. inversion F as [|? a ? l Ea Fl]; subst. inversion Fl as [|? b ? l' Eb Fl']; subst. inversion Fl'; subst. cbn in Ea, Eb. injection Ea as <-. injection Eb as <-.
    destruct (M 0%nat 0%nat ltac:(lia) ltac:(lia)) as (v & Ev & Ey). cbn [app] in Ey. rewrite Ey. cbn in Ev. injection Ev as <-. f_equal. unfold average, sum. cbn. lra.
  - destruct (G [] 1%nat Logic.I ltac:(lia)) as (ps & F & M). cbv zeta in M. cbn in F. inversion F as [|? a ? l Ea Fl]; subst. inversion Fl as [|? b ? l' Eb Fl']; subst. inversion Fl'; subst. cbn in Ea, Eb. injection Ea as <-. injection Eb as <-.
    destruct (M 0%nat 1%nat ltac:(lia) ltac:(lia)) as (v & Ev & Ey). cbn [app] in Ey. rewrite Ey. cbn in Ev. injection Ev as <-. f_equal. unfold average, sum. cbn. lra.
Qed.
