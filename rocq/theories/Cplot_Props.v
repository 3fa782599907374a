(** C104: the plots of covariance matrices. *)
From Coq Require Import Reals List Arith Bool String Ascii Lia Lra.
From Verif Require Import RBase PyList ListUtil Shape Hplot_Model Hplot_Spec Hplot_Proof Iplot_Model Iplot_Proof Cplot_Model Cplot_Spec Cplot_Proof.
Import ListNotations.
Local Open Scope nat_scope.
Local Open Scope string_scope.

Definition entries (v : arr) : nat -> nat -> R := fun x y => get v [x; y].
Definition drawn (a : args) (C : nat -> nat -> R) (bins : list nat) (p : plot) : Prop := shows (a_corr a) C bins (p_rows p).

(** the whole matrix of a mapping, then that of each channel and of each of its slices: the right rows and columns *)
Theorem C104_plots a key i v N axs :
  i_cov i (cov_key a) = Some v -> t_shape v = [N; N] -> List.length (t_data v) = N * N ->
  Forall2 (fun kc ax => c_axes (snd kc) = Some ax) (i_channels i) axs -> (forall ax, In ax axs -> drawable a ax) ->
  all_bins (map (layout a) axs) = N ->
  exists ps, inst_plots a key i = Ok ps /\ Forall2 (drawn a (entries v)) (expected (map (layout a) axs)) ps.
Proof.
  intros I T L F D E. unfold inst_plots. rewrite I. cbv zeta.
  destruct (plot_shows a None None (Some (key_suffix key)) None v v (entries v) (seq 0 N)) as (p & P1 & P2 & _).
  { apply (flat2_two v _ _ T). } { rewrite seq_length. exact T. }
  { intros x y x' y' X Y. apply seq_at in X, Y. destruct X as [X ->], Y as [Y ->]. reflexivity. }
  rewrite P1. cbn [rbind]. unfold expected. rewrite E. destruct axs as [|ax [|ax' axs]].
  - inversion F as [H|]; subst. exists [p]. split; [reflexivity|]. constructor; [exact P2|constructor].
  - inversion F as [|[k c] ? l ? FA FB H]; subst. inversion FB; subst. cbn [snd] in FA. cbn [List.length Nat.ltb Nat.leb map]. cbn [chan_loop fst snd]. unfold chan_step. rewrite FA. cbn [s_cov s_start s_suffix rbind].
    assert (DA : drawable a ax) by (apply D; left; reflexivity).
    assert (EN : all_bins (map (layout a) [ax]) = prodn (map snd ax)) by (unfold all_bins; cbn [map list_sum fold_right]; rewrite layout_snd, size_prodn; lia).
    destruct (filter (selected (a_selaxes a)) ax) as [|s0 sel] eqn:ES.
    + cbn [rbind fst snd app]. exists [p]. split; [reflexivity|]. rewrite (no_slices a ax 0 ES). constructor; [exact P2|constructor].
    + destruct (sel_shows a k (c_label c) ax v v 0 (entries v)) as (qs & Q1 & Q2 & _).
      * apply drawable_others; [exact DA|rewrite ES; discriminate].
      * apply (flat2_two v _ _ T).
      * rewrite <- EN. exact T.
      * rewrite <- EN. exact L.
      * reflexivity.
      * rewrite ES. discriminate.
      * rewrite Q1. cbn [rbind fst snd app]. exists (p :: qs). split; [rewrite app_nil_r; reflexivity|]. constructor; [exact P2|exact Q2].
  - assert (SV : Nat.ltb 1 (List.length (i_channels i)) = true). { inversion F as [|? ? ? ? ? F2]; subst. inversion F2; subst. reflexivity. }
    rewrite SV. destruct (loop_shows a v N T (i_channels i) (ax :: ax' :: axs) 0 (key_suffix key) F D) as (ps & Q1 & Q2); [lia|].
    rewrite Q1. cbn [rbind app]. exists (p :: ps). split; [reflexivity|]. constructor; [exact P2|exact Q2].
Qed.

(** a mapping with a single channel and the covariance stored with the channel (as is that of the data) *)
Theorem C104_channel_cov a key i k c ax l :
  i_cov i (cov_key a) = None -> i_channels i = [(k, c)] -> c_axes c = Some ax -> ax <> [] -> drawable a ax ->
  c_cov c (cov_key a) = Some (mkArr (map snd ax ++ map snd ax) l) -> List.length l = prodn (map snd ax) * prodn (map snd ax) ->
  exists ps, inst_plots a key i = Ok ps /\
    Forall2 (drawn a (fun x y => nth (x * prodn (map snd ax) + y) l 0%R)) (seq 0 (size (map snd ax)) :: slices 0 (layout a ax)) ps.
Proof.
  intros I CH CA NE DA CV L. set (n := prodn (map snd ax)) in *. set (C := fun x y => nth (x * n + y) l 0%R).
  assert (NS : map snd ax <> []) by (destruct ax; [contradiction|discriminate]).
  assert (FL := flat2_square (map snd ax) l L NS). fold n in FL.
  destruct (plot_shows a (Some k) (Some (map fst ax)) (Some (key_suffix key)) None (mkArr (map snd ax ++ map snd ax) l) (mkArr [n; n] l) C (seq 0 n)) as (p & P1 & P2 & _).
  { exact FL. } { rewrite seq_length. reflexivity. } { intros x y x' y' X Y. apply seq_at in X, Y. destruct X as [X ->], Y as [Y ->]. rewrite get2. reflexivity. }
  unfold inst_plots. rewrite I. cbn [rbind]. rewrite CH. cbn [List.length Nat.ltb Nat.leb chan_loop fst snd]. unfold chan_step. rewrite CA. cbn [s_cov s_start s_suffix]. rewrite CV, P1. cbn [rbind].
  rewrite size_prodn. fold n. destruct (filter (selected (a_selaxes a)) ax) as [|s0 sel] eqn:ES.
  - cbn [rbind fst snd app]. exists [p]. split; [reflexivity|]. rewrite (no_slices a ax 0 ES). constructor; [exact P2|constructor].
  - destruct (sel_shows a k (c_label c) ax (mkArr (map snd ax ++ map snd ax) l) (mkArr [n; n] l) 0 C) as (qs & Q1 & Q2 & _).
    + apply drawable_others; [exact DA|rewrite ES; discriminate].
    + exact FL.
    + reflexivity.
    + exact L.
    + intros x y X Y. rewrite get2. reflexivity.
    + rewrite ES. discriminate.
    + rewrite Q1. cbn [rbind fst snd app]. exists (p :: qs). split; [rewrite app_nil_r; reflexivity|]. constructor; [exact P2|exact Q2].
Qed.

(** the parameters in the order asked for, each with its own row, column and label; none named: all of them *)
Theorem C104_params a label names cov n l : t_shape cov = [n; n] -> List.length names = n -> a_params a = Some l -> (forall p, In p l -> In p names) ->
  exists p bins, params_plot a label names cov = Ok [p] /\ drawn a (entries cov) bins p /\
    match l with
    | [] => bins = seq 0 n /\ p_ticks p = None
    | _ => Forall2 (fun q i => nth_error names i = Some q) l bins /\ p_ticks p = Some (map label l)
    end.
Proof.
  intros T LN A H. unfold params_plot. rewrite A. destruct l as [|q0 l].
  - destruct (plot_shows a None (Some ["parms_x"; "parms_y"]) (Some "params") None cov cov (entries cov) (seq 0 n)) as (p & P1 & P2 & _ & P4).
    { apply (flat2_two cov _ _ T). } { rewrite seq_length. exact T. } { intros x y x' y' X Y. apply seq_at in X, Y. destruct X as [X ->], Y as [Y ->]. reflexivity. }
    rewrite P1. cbn [rbind]. exists p, (seq 0 n). auto.
  - set (ps := q0 :: l) in *. assert (FA : forallb (fun p => mem p names) ps = true) by (apply forallb_forall; intros x X; apply mem_in, H; exact X). rewrite FA. cbn [negb].
    assert (IX := indices_ok ps names H). set (ix := indices ps names) in *. cbv zeta.
    set (f := fun i => match i with [x; y] => _ | _ => _ end).
    destruct (plot_shows a None (Some ["parms_x"; "parms_y"]) (Some "params") (Some (map (fun i => label (nth i names "")) ix)) (build [List.length ix; List.length ix] f) (build [List.length ix; List.length ix] f) (entries cov) ix) as (p & P1 & P2 & _ & P4).
    { apply (flat2_two _ (List.length ix) (List.length ix)). reflexivity. } { reflexivity. }
    { intros i j x y X Y. assert (LI : i < List.length ix) by (apply nth_error_Some; congruence). assert (LJ : j < List.length ix) by (apply nth_error_Some; congruence).
      rewrite get_build by (constructor; [exact LI|constructor; [exact LJ|constructor]]). unfold f. rewrite (nth_error_nth _ _ 0 X), (nth_error_nth _ _ 0 Y). reflexivity. }
    rewrite P1. cbn [rbind]. exists p, ix. split; [reflexivity|]. split; [exact P2|]. destruct (ix_names names label ps ix IX) as [Q1 Q2].
    change (Forall2 (fun q i => nth_error names i = Some q) ps ix /\ p_ticks p = Some (map label ps)). rewrite P4, Q2. auto.
Qed.

(** correlations: at most one in size, one on the diagonal and the same across it *)
Theorem C104_correlation C n bins rows : symmetric C -> semidefinite n C -> (forall x, In x bins -> x < n) -> shows true C bins rows ->
  forall i j x y, nth_error bins i = Some x -> nth_error bins j = Some y -> exists row row' e,
    nth_error rows i = Some row /\ nth_error row j = Some e /\ nth_error rows j = Some row' /\ nth_error row' i = Some e /\
    (forall r, e = Some r -> (-1 <= r <= 1)%R /\ (x = y -> r = 1%R)).
Proof.
  intros S P B (L & LR & H) i j x y X Y. destruct (H i j x y X Y) as (row & e & R1 & R2 & R3). destruct (H j i y x Y X) as (row' & e' & R1' & R2' & R3').
  assert (EE : e = e').
  { cbn in R3, R3'. destruct e as [r|], e' as [r'|].
    - destruct R3 as (A & D & E), R3' as (A' & D' & E'). f_equal. assert (Sx := sqrt_lt_R0 _ A). assert (Sy := sqrt_lt_R0 _ D).
      apply (Rmult_eq_reg_r (sqrt (C x x) * sqrt (C y y))%R); [|apply Rgt_not_eq, Rmult_lt_0_compat; assumption]. rewrite E, (S x y), <- E'. ring.
    - destruct R3 as (A & D & _). exfalso. destruct R3'; lra.
    - destruct R3' as (A & D & _). exfalso. destruct R3; lra.
    - reflexivity. }
  subst e'. exists row, row', e. repeat (split; [assumption|]). intros r ->. cbn in R3. destruct R3 as (A & D & E). assert (Sx := sqrt_lt_R0 _ A). assert (Sy := sqrt_lt_R0 _ D). split.
  - assert (Q := cauchy n C x y S P (B x (nth_error_In _ _ X)) (B y (nth_error_In _ _ Y)) A D). set (s := (sqrt (C x x) * sqrt (C y y))%R) in *. assert (Ps : (0 < s)%R) by (apply Rmult_lt_0_compat; assumption).
    assert (Q2 : (s * s = C x x * C y y)%R). { unfold s. replace (sqrt (C x x) * sqrt (C y y) * (sqrt (C x x) * sqrt (C y y)))%R with ((sqrt (C x x) * sqrt (C x x)) * (sqrt (C y y) * sqrt (C y y)))%R by ring. rewrite !sqrt_sqrt by lra. reflexivity. }
    rewrite <- E, <- Q2 in Q. assert (W : (r * r <= 1)%R). { apply (Rmult_le_reg_r (s * s)); [apply Rmult_lt_0_compat; assumption|]. lra. } split; nra.
  - intros <-. assert (Q : (sqrt (C x x) * sqrt (C x x) = C x x)%R) by (apply sqrt_sqrt; lra). rewrite Q in E. apply (Rmult_eq_reg_r (C x x)); [|lra]. lra.
Qed.

(** the files of the slices of a channel are different files, each with its own slice *)
Theorem C104_slice_files a channel label axes h m : plain label -> others a axes <> [] -> filter (selected (a_selaxes a)) axes <> [] ->
  flat2 h = Ok m -> t_shape m = [prodn (map snd axes); prodn (map snd axes)] -> List.length (t_data m) = prodn (map snd axes) * prodn (map snd axes) ->
  exists ps, sel_plots a channel label axes h = Ok ps /\ Forall2 (drawn a (entries m)) (slices 0 (layout a axes)) ps /\ NoDup (map p_file ps) /\
    forall p, In p ps -> on_disk ps (p_file p) = Some p.
Proof.
  intros P NE NS F T L. destruct (sel_shows a channel label axes h m 0 (entries m) NE F T L (fun _ _ _ _ => eq_refl) NS) as (ps & Q1 & Q2 & Q3).
  exists ps. split; [exact Q1|]. split; [exact Q2|]. set (sel := filter (selected (a_selaxes a)) axes) in *.
  assert (ND : NoDup (map p_file ps)).
  { assert (E : map p_file ps = map (fun b => file_name a (Some channel) (Some (map fst (others a axes))) (Some (sel_suffix channel label sel b))) (bins_of sel)).
    { clear -Q3. induction Q3 as [|x y l l' E Q IH]; [reflexivity|]. cbn [map]. rewrite E, IH. reflexivity. }
    rewrite E. apply nodup_map_inj; [|apply nodup_bins]. intros x y X Y Q. apply in_bins, valid_length in X. apply in_bins, valid_length in Y. revert Q. apply (sel_files a (Some channel) _ label sel x y P X Y). }
  split; [exact ND|]. intros p I. unfold on_disk. assert (I' : In p (rev ps)) by (apply in_rev in I; exact I). assert (ND' : NoDup (map p_file (rev ps))) by (rewrite map_rev; apply NoDup_rev; exact ND).
  revert I' ND'. generalize (rev ps). clear. induction l as [|q l IH]; intros I ND; [destruct I|]. cbn [find]. destruct (String.eqb_spec (p_file q) (p_file p)) as [E|E].
  - destruct I as [->|I]; [reflexivity|]. exfalso. cbn in ND. inversion ND as [|? ? N _]. apply N. rewrite E. apply in_map. exact I.
  - destruct I as [->|I]; [contradiction|]. apply IH; [exact I|]. cbn in ND. inversion ND; assumption.
Qed.

(** ** examples: two channels, the first with a selected axis *)
Definition ex_args : args := mkArgs false [["M"]] None false ["charge"] false "" false.
Definition ex_label : string -> nat -> string := fun _ i => if Nat.eqb i 0 then "-1.0" else "1.0".
Definition ex_cov : arr := mkArr [6; 6] (map INR (seq 0 36)).
Definition ex_a : chan := mkC (Some [("charge", 2); ("pt", 2)]) ex_label (fun _ => None).
Definition ex_b : chan := mkC (Some [("eta", 2)]) ex_label (fun _ => None).
Definition ex_inst : inst := mkI (fun k => if String.eqb k "hist_postfit_inclusive_cov" then Some ex_cov else None) [("a", ex_a); ("b", ex_b)].
Definition numbers (p : plot) : list (list (option R)) := p_rows p.
Example C104_ex_bins : expected (map (layout ex_args) [[("charge", 2); ("pt", 2)]; [("eta", 2)]]) = [seq 0 6; [0; 1; 2; 3]; [0; 1]; [2; 3]; [4; 5]].
Proof. reflexivity. Qed.
Example C104_ex_slice : exists ps p, inst_plots ex_args "M" ex_inst = Ok ps /\ nth_error ps 3 = Some p /\
  p_rows p = [[Some (INR 14); Some (INR 15)]; [Some (INR 20); Some (INR 21)]] /\ p_file p = "hist_cov_postfit_a_pt_a_charge_1p0".
Proof. eexists. eexists. repeat split; reflexivity. Qed.
Example C104_ex_channel : exists ps p, inst_plots ex_args "M" ex_inst = Ok ps /\ nth_error ps 4 = Some p /\
  p_rows p = [[Some (INR 28); Some (INR 29)]; [Some (INR 34); Some (INR 35)]].
Proof. eexists. eexists. repeat split; reflexivity. Qed.
Example C104_ex_params : exists p, params_plot (mkArgs false [] (Some ["mu"; "norm"]) false [] false "v2" true) (fun s => s ++ "!") ["norm"; "x"; "mu"] (mkArr [3; 3] (map INR (seq 0 9))) = Ok [p] /\
  p_rows p = [[Some (INR 8); Some (INR 6)]; [Some (INR 2); Some (INR 0)]] /\ p_ticks p = Some ["mu!"; "norm!"] /\ p_file p = "hist_cov_postfit_parms_x_parms_y_params_v2_preliminary".
Proof. eexists. repeat split; reflexivity. Qed.
Example C104_ex_correlation : entry_ok true (fun i j => if Nat.eqb i j then 4 else -2)%R 0 1 (Some (-1/2))%R /\ entry_ok true (fun i j => 0%R) 0 1 None.
Proof. cbn. split; [|left; lra]. replace 4%R with (2 * 2)%R by lra. rewrite sqrt_square by lra. lra. Qed.
Example C104_ex_entry : entry true (mkArr [2; 2] [4; -2; -2; 4]%R) 0 1 = Some (-1/2)%R /\ entry true (mkArr [2; 2] [4; 0; 0; 0]%R) 0 1 = None /\ entry true (mkArr [2; 2] [4; 1; 1; -1]%R) 0 1 = None.
Proof.
  assert (S : sqrt 4 = 2%R) by (replace 4%R with (2 * 2)%R by lra; apply sqrt_square; lra).
  unfold entry. repeat split; cbn -[sqrt Rltb Reqb]; unfold get; cbn -[sqrt Rltb Reqb]; unfold Rltb, Reqb.
  - destruct (Rlt_dec 4 0); [lra|]. cbn [orb]. rewrite S. destruct (Req_EM_T (2 * 2) 0); [lra|]. f_equal. lra.
  - destruct (Rlt_dec 4 0); [lra|]. destruct (Rlt_dec 0 0); [lra|]. cbn [orb]. rewrite sqrt_0. destruct (Req_EM_T (sqrt 4 * 0) 0); [reflexivity|lra].
  - destruct (Rlt_dec 4 0); [lra|]. destruct (Rlt_dec (-1) 0); [reflexivity|lra].
Qed.
Example C104_ex_names : key_suffix "Project ch0 pt:rebin(2) 1.5,3" = "Project_ch0_ptrebin2_1p5k3" /\ file_name ex_args (Some "a") (Some []) None = "hist_cov_postfit_a" /\
  file_name (mkArgs true [] None true [] false "" false) None None (Some "s") = "hist_corr_prefit_s" /\ file_name (mkArgs true [] None true [] true "" false) None None (Some "s") = "hist_corr_data_s".
Proof. repeat split; reflexivity. Qed.
Example C104_ex_missing : inst_plots ex_args "M" (mkI (fun _ => None) [("a", ex_a)]) = Raise ValueError /\
  inst_plots ex_args "M" (mkI (fun _ => Some ex_cov) [("a", mkC None ex_label (fun _ => None))]) = Raise KeyError /\ mapping_plots ex_args [("M 1", ex_inst)] ["Q"] = Raise ValueError.
Proof. repeat split; reflexivity. Qed.
(** a covariance with fewer bins than the channels, and the bins of the second channel all beyond its end *)
Example C104_ex_short : slice2 (mkArr [4; 4] (map INR (seq 0 16))) 4 6 = Raise ValueError /\ inst_plots ex_args "M" (mkI (fun _ => Some (mkArr [4; 4] (map INR (seq 0 16)))) (i_channels ex_inst)) = Raise ValueError.
Proof. split; reflexivity. Qed.
(** all mappings with this beginning of their name *)
Example C104_ex_mappings : exists ps qs, mapping_plots ex_args [("M 1", ex_inst); ("L", ex_inst); ("M 2", ex_inst)] ["M"] = Ok ps /\ inst_plots ex_args "M 2" ex_inst = Ok qs /\ List.length ps = 10 /\ skipn 5 ps = qs.
Proof. eexists. eexists. repeat split; reflexivity. Qed.
(** the plots of two channels with more axes: order of the flattened bins *)
Example C104_ex_order : slices 10 [(false, 2); (true, 3); (false, 2)] = [[10; 11; 16; 17]; [12; 13; 18; 19]; [14; 15; 20; 21]].
Proof. reflexivity. Qed.

(** ** what does not hold *)
(** the covariance of the data is stored per channel: the plot of the second channel shows the one of the first *)
Definition data_args : args := mkArgs false [["M"]] None false [] true "" false.
Definition data_chan (ax : string) (x : R) : chan := mkC (Some [(ax, 1)]) ex_label (fun k => if String.eqb k "cov_data_obs" then Some (mkArr [1; 1] [x]) else None).
Theorem C104_second_channel_refuted : exists a key i ps p, i_channels i = [("a", data_chan "pt" 1); ("b", data_chan "eta" 2)] /\ a_data a = true /\ inst_plots a key i = Ok ps /\
  nth_error ps 1 = Some p /\ p_file p = "hist_cov_data_b_eta_M" /\ c_cov (data_chan "eta" 2) "cov_data_obs" = Some (mkArr [1; 1] [2%R]) /\ p_rows p = [[Some 1%R]].
Proof. exists data_args, "M", (mkI (fun _ => None) [("a", data_chan "pt" 1); ("b", data_chan "eta" 2)]). eexists. eexists. repeat split; reflexivity. Qed.
(** with two axes this stops the script *)
Theorem C104_second_channel_stops : exists a i v w, i_channels i = [("a", v); ("b", w)] /\ (forall c, In c [v; w] -> c_axes c = Some [("pt", 1); ("eta", 1)] /\ c_cov c (cov_key a) = Some (mkArr [1; 1; 1; 1] [1%R])) /\ inst_plots a "M" i = Raise IndexError.
Proof.
  set (c := mkC (Some [("pt", 1); ("eta", 1)]) ex_label (fun _ => Some (mkArr [1; 1; 1; 1] [1%R]))). exists data_args, (mkI (fun _ => None) [("a", c); ("b", c)]), c, c.
  split; [reflexivity|]. split; [|reflexivity]. intros x [<-|[<-|[]]]; split; reflexivity.
Qed.
(** after a channel with slices the name of the mapping is missing from the files of the channels that follow *)
Theorem C104_suffix_refuted : exists ps p, inst_plots ex_args "M" ex_inst = Ok ps /\ nth_error ps 4 = Some p /\ p_file p <> file_name ex_args (Some "b") (Some ["eta"]) (Some (key_suffix "M")) /\ p_file p = "hist_cov_postfit_b_eta_a_charge_1p0".
Proof. eexists. eexists. split; [reflexivity|]. split; [reflexivity|]. split; [discriminate|reflexivity]. Qed.
(** the slices of two mappings are written to the same files *)
Definition over_inst (x : R) : inst := mkI (fun _ => Some (mkArr [2; 2] [x; 0; 0; x]%R)) [("a", mkC (Some [("charge", 2); ("pt", 1)]) ex_label (fun _ => None))].
Theorem C104_overwritten_refuted : exists a results ps p, map fst results = ["M 1"; "M 2"] /\ all_plots a (fun s => s) [] ex_cov results = Ok ps /\ In p ps /\ on_disk ps (p_file p) <> Some p.
Proof.
  exists ex_args, [("M 1", over_inst 1); ("M 2", over_inst 2)]. eexists. eexists (mkPlot "hist_cov_postfit_a_pt_a_charge_m1p0" [[Some 1%R]] None). split; [reflexivity|]. split; [reflexivity|]. split; [right; left; reflexivity|].
  intros E. assert (Q : Some 2%R = Some 1%R) by (change (match Some (mkPlot "hist_cov_postfit_a_pt_a_charge_m1p0" [[Some 2%R]] None) with Some (mkPlot _ ((e :: _) :: _) _) => e | _ => None end = Some 1%R); cbn in E; rewrite E; reflexivity).
  injection Q. lra.
Qed.
(** without -m no mapping is drawn, although the help announces all of them *)
Theorem C104_default_refuted : exists a results, a_mapping a = [] /\ results <> [] /\ (forall ki, In ki results -> exists ps, inst_plots a (fst ki) (snd ki) = Ok ps /\ ps <> []) /\ all_plots a (fun s => s) [] ex_cov results = Ok [].
Proof.
  exists (mkArgs false [] None false ["charge"] false "" false), [("M", ex_inst)]. split; [reflexivity|]. split; [discriminate|]. split; [|reflexivity]. intros ki [<-|[]]. eexists. split; [reflexivity|discriminate].
Qed.
(** a parameter that does not exist is not reported as such *)
Theorem C104_unknown a label names cov l q : a_params a = Some l -> In q l -> ~ In q names -> params_plot a label names cov = Raise TypeError /\ params_plot a label names cov <> Raise RuntimeError.
Proof.
  intros A I N. assert (E : params_plot a label names cov = Raise TypeError); [|rewrite E; split; [reflexivity|discriminate]].
  unfold params_plot. rewrite A. destruct l as [|x l]; [destruct I|]. destruct (forallb (fun p => mem p names) (x :: l)) eqn:F; [|reflexivity].
  exfalso. rewrite forallb_forall in F. apply N. apply mem_in. apply F. exact I.
Qed.
Theorem C104_unknown_refuted : exists a names cov, a_params a = Some ["mu"] /\ ~ In "mu" names /\ params_plot a (fun s => s) names cov <> Raise RuntimeError.
Proof. exists (mkArgs false [] (Some ["mu"]) false [] false "" false), ["norm"], (mkArr [1; 1] [1%R]). split; [reflexivity|]. split; [intros [E|[]]; discriminate|discriminate]. Qed.
(** a channel all of whose axes are selected stops the script *)
Theorem C104_all_selected_refuted : exists a i v axs, i_cov i (cov_key a) = Some v /\ t_shape v = [2; 2] /\ Forall2 (fun kc ax => c_axes (snd kc) = Some ax) (i_channels i) axs /\ all_bins (map (layout a) axs) = 2 /\
  inst_plots a "M" i = Raise GenericException.
Proof.
  exists ex_args, (mkI (fun _ => Some (mkArr [2; 2] [1; 0; 0; 1]%R)) [("a", mkC (Some [("charge", 2)]) ex_label (fun _ => None))]), (mkArr [2; 2] [1; 0; 0; 1]%R), [[("charge", 2)]].
  repeat split; repeat constructor.
Qed.
(** --prefit changes the name of the file with the parameters, not the matrix, which is that of the fit *)
Theorem C104_prefit_params a a' label names cov p p' : a_prefit a = true -> a' = mkArgs (a_corr a) (a_mapping a) (a_params a) false (a_selaxes a) (a_data a) (a_postfix a) (a_prelim a) ->
  params_plot a label names cov = Ok [p] -> params_plot a' label names cov = Ok [p'] -> p_rows p = p_rows p'.
Proof.
  intros _ -> P P'. unfold params_plot in *. cbn [a_params] in P'. destruct (a_params a) as [[|x l]|]; [| |discriminate].
  - unfold plot_matrix in *. destruct (flat2 cov) as [m|]; [|discriminate]. cbn [rbind] in *. destruct (t_shape m) as [|n [|k [|? ?]]]; try discriminate. cbn [a_corr] in P'. destruct (a_corr a && negb (Nat.eqb n k)); [discriminate|]. cbn [rbind] in *. injection P as <-. injection P' as <-. reflexivity.
  - destruct (negb (forallb (fun p => mem p names) (x :: l))); [discriminate|]. cbv zeta in *. unfold plot_matrix in *. set (s := build _ _) in *. destruct (flat2 s) as [m|]; [|discriminate]. cbn [rbind] in *. destruct (t_shape m) as [|n [|k [|? ?]]]; try discriminate. cbn [a_corr] in P'.
    destruct (a_corr a && negb (Nat.eqb n k)); [discriminate|]. cbn [rbind] in *. injection P as <-. injection P' as <-. reflexivity.
Qed.
Theorem C104_prefit_params_refuted : exists a p, a_prefit a = true /\ params_plot a (fun s => s) ["mu"] (mkArr [1; 1] [1%R]) = Ok [p] /\ p_file p = "hist_cov_prefit_parms_x_parms_y_params" /\ p_rows p = [[Some 1%R]].
Proof. exists (mkArgs false [] (Some []) true [] false "" false). eexists. repeat split; reflexivity. Qed.

Print Assumptions C104_plots.
Print Assumptions C104_channel_cov.
Print Assumptions C104_params.
Print Assumptions C104_correlation.
Print Assumptions C104_slice_files.
Print Assumptions C104_second_channel_refuted.
Print Assumptions C104_second_channel_stops.
Print Assumptions C104_suffix_refuted.
Print Assumptions C104_overwritten_refuted.
Print Assumptions C104_default_refuted.
Print Assumptions C104_unknown.
Print Assumptions C104_unknown_refuted.
Print Assumptions C104_all_selected_refuted.
Print Assumptions C104_prefit_params.
Print Assumptions C104_prefit_params_refuted.
