(** Archives of integrators. *)
From Verif Require Import Base Vec3 ThermoModel ThermoSpec.
From Coq Require Import Reals Lra.
Local Open Scope R_scope.

(** A reader inverts a writer. *)
Definition inverts {A} (w : A -> list tword) (rd : list tword -> outcome (A * list tword)) : Prop :=
  forall x rest, rd (w x ++ rest) = Ok (x, rest).
Lemma inverts_D : inverts (fun v => [TD v]) trdD.
Proof. by intros x rest. Qed.
Lemma inverts_V : inverts twV trdV.
Proof. by intros [x y z] rest. Qed.
Lemma trds_app {A} (w : A -> list tword) rd (l : list A) rest : inverts w rd -> trds rd (length l) (concat (map w l) ++ rest) = Ok (l, rest).
Proof.
  intros H. induction l as [|x l IH]; cbn [length trds map concat app]; [done|]. rewrite <- app_assoc, H. cbn [obind]. by rewrite IH.
Qed.
Lemma trdArr_app {A} (w : A -> list tword) rd (l : list A) n rest : inverts w rd -> (0 < n)%Z -> length l = Z.to_nat n ->
  trdArr rd n (twArr w l ++ rest) = Ok (l, rest).
Proof.
  intros H Hn Hl. unfold trdArr, twArr. destruct (Z_lt_dec 0 n) as [_|]; [|lia]. cbn [app trdI obind]. rewrite Hl, Z2Nat.id by lia.
  destruct (Z.eq_dec n n) as [_|]; [|done]. rewrite <- Hl. by apply trds_app.
Qed.
Lemma trdArr0_app {A} (w : A -> list tword) rd (l : list A) rest : inverts w rd -> trdArr0 rd (twArr w l ++ rest) = Ok (l, rest).
Proof. intros H. unfold trdArr0, twArr. cbn [app trdI obind]. rewrite Nat2Z.id. by apply trds_app. Qed.

Lemma nve_trip types x rest : (0 < types)%Z -> length (vePre x) = Z.to_nat types -> nve_load types (nve_save x ++ rest) = Ok (x, rest).
Proof.
  intros H1 H2. destruct x as [dt pre]. unfold nve_load, nve_save. cbn [app trdD obind vePre veDt] in *. by rewrite (trdArr_app _ _ _ _ _ inverts_D).
Qed.
Lemma nh_trip x rest : nh_load (nh_save x ++ rest) = Ok (x, rest).
Proof.
  unfold nh_load, nh_save. cbn [app trdD obind]. rewrite (trdArr0_app _ _ _ _ inverts_D). by destruct x.
Qed.
Lemma dpd_trip maxcut x rest : pCut x <= maxcut -> dpd_load maxcut (dpd_save x ++ rest) = Ok (x, rest).
Proof.
  unfold dpd_load, dpd_save. cbn [app trdD trdI obind]. intros H.
  destruct (Rlt_dec _ _) as [|_]; [lra|]. rewrite <- !app_assoc, (trdArr0_app _ _ _ _ inverts_D). cbn [obind].
  rewrite (trdArr0_app _ _ _ _ inverts_V). cbn [obind]. rewrite (trdArr0_app _ _ _ _ inverts_V). by destruct x.
Qed.
Lemma nph_trip x rest : nph_load (nph_save x ++ rest) = Ok (x, rest).
Proof.
  unfold nph_load, nph_save. rewrite <- !app_assoc. cbn [app trdD trdI obind].
  rewrite inverts_V. cbn [obind]. rewrite inverts_V. cbn [obind]. rewrite (trdArr0_app _ _ _ _ inverts_D). by destruct x.
Qed.
Lemma base_trip bi name x rest : loadable bi x name -> base_load bi name (base_save x ++ rest) = Ok (x, rest).
Proof.
  destruct x as [int nm step su]. unfold loadable, base_load, base_save. cbn [bInt bName bStep bSetup]. destruct (Z_lt_dec 0 int) as [H|H].
  - intros [H1 H2]. cbn [app trdI obind]. destruct (Z_lt_dec 0 int) as [_|]; [|done]. destruct (Z_lt_dec 0 bi) as [_|]; [|done].
    destruct (Z.eq_dec (Z.rem int bi) 0) as [_|Hn]; [done|]. exfalso. apply Hn. apply Z.rem_divide; [lia|done].
  - intros ->. cbn [app trdI obind]. destruct (Z_lt_dec 0 int) as [|_]; [done|]. done.
Qed.
Lemma dd_nve_trip bi name x rest : loadable bi x.2 name -> dd_nve_load bi name (dd_nve_save x ++ rest) = Ok (x.1, x.2, rest).
Proof. intros H. unfold dd_nve_load, dd_nve_save. cbn [app trdD obind]. by rewrite base_trip. Qed.
Lemma dd_nvt_trip bi name x rest : loadable bi (vtB x) name -> dd_nvt_load bi name (dd_nvt_save x ++ rest) = Ok (x, rest).
Proof. intros H. unfold dd_nvt_load, dd_nvt_save. cbn [app trdD obind]. rewrite <- app_assoc. rewrite base_trip by done. by destruct x. Qed.
Lemma dd_nph_trip bi name x rest : loadable bi (dhB x) name -> dd_nph_load bi name (dd_nph_save x ++ rest) = Ok (x, rest).
Proof.
  intros H. unfold dd_nph_load, dd_nph_save. cbn [app trdD trdI obind]. rewrite <- app_assoc, base_trip by done.
  cbn [obind]. rewrite inverts_V. by destruct x.
Qed.
Lemma dd_npt_trip bi name x rest : loadable bi (ptB x) name -> dd_npt_load bi name (dd_npt_save x ++ rest) = Ok (x, rest).
Proof.
  intros H. unfold dd_npt_load, dd_npt_save. cbn [app trdD trdI obind].
  rewrite <- !app_assoc, base_trip by done. cbn [obind app trdD]. rewrite inverts_V. by destruct x.
Qed.
Lemma lang_trip_fails types g x rest : lang_load types g (lang_save x ++ rest) <> Ok (x, rest).
Proof. unfold lang_load, lang_save. cbn [app trdD obind]. unfold trdArr. by destruct (Z_lt_dec 0 types). Qed.
Lemma dd_lang_trip_fails bi name g x rest : dd_lang_load bi name g (dd_lang_save x ++ rest) <> Ok (x, rest).
Proof. done. Qed.
