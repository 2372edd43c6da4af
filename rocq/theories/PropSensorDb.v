(** * C49: the sensor database and exif parameters *)
Require Import String Reals Lra Lia List Bool NArith.
From Verif Require Import Num GpsString SensorDb.
Import ListNotations.
Open Scope N_scope.

(** ** Specification *)
(** The lines of a text: every line but possibly the last ends with a newline. *)
Inductive text_lines : str -> list str -> Prop :=
| LEnd : text_lines [] []
| LLast l : l <> [] -> ~ In NL l -> text_lines l [l]
| LLine l s ls : ~ In NL l -> text_lines s ls -> text_lines (l ++ NL :: s) ((l ++ [NL]) :: ls).
(** A text without carriage returns is read as it is. *)
Definition unix (s : str) : Prop := ~ In CR s.
Definition plain (s : str) : Prop := ~ In SEMI s.
(** The line is about the camera [name] of [maker]. *)
Definition about (maker name line : str) : Prop := exists rest, line = maker ++ SEMI :: name ++ SEMI :: rest.
(** ... and gives its sensor size: maker;name;text;width;height, possibly followed by more fields. *)
Definition gives (float : str -> option num) (maker name line : str) (w h : num) : Prop :=
  exists size a b rest, plain size /\ plain a /\ plain b /\ (rest = [] \/ exists r, rest = SEMI :: r) /\
    line = maker ++ SEMI :: name ++ SEMI :: size ++ SEMI :: a ++ SEMI :: b ++ rest /\
    float a = Some w /\ float b = Some h.
(** The model tag of the exif data: "maker name", the maker without a space. *)
Definition camera_model (maker name : str) : str := maker ++ SPACE :: name.
Definition fine (maker name : str) : Prop := plain maker /\ plain name /\ ~ In SPACE maker.

(** ** Strings *)
Lemma universal_unix s : unix s -> universal s = s.
Proof.
  unfold unix. induction s as [|c t IH]; intros H; cbn [universal]; auto. destruct (N.eqb_spec c CR) as [-> |NE].
  - exfalso. apply H. left. auto.
  - f_equal. apply IH. intros X. apply H. right. auto.
Qed.
Lemma lines_body l t : ~ In NL l -> lines (l ++ NL :: t) = (l ++ [NL]) :: lines t.
Proof.
  induction l as [|c l IH]; intros H.
  - cbn [app lines]. rewrite N.eqb_refl. auto.
  - cbn [app lines]. destruct (N.eqb_spec c NL) as [-> |NE]; [exfalso; apply H; left; auto|].
    rewrite IH by (intros X; apply H; right; auto). auto.
Qed.
Lemma lines_last l : l <> [] -> ~ In NL l -> lines l = [l].
Proof.
  induction l as [|c l IH]; intros NE H; [congruence|]. cbn [lines]. destruct (N.eqb_spec c NL) as [-> |NC]; [exfalso; apply H; left; auto|].
  destruct l as [|d l]; auto. rewrite IH; auto; [discriminate|]. intros X; apply H; right; auto.
Qed.
Lemma lines_spec s ls : text_lines s ls -> lines s = ls.
Proof. induction 1; auto using lines_last. rewrite lines_body, IHtext_lines; auto. Qed.
Lemma text_lines_total s : exists ls, text_lines s ls.
Proof.
  assert (X : forall n s, (length s <= n)%nat -> exists ls, text_lines s ls).
  2: { apply (X (length s)). auto. }
  induction n as [|n IH]; intros s0 L.
  - destruct s0; cbn in L; [|lia]. exists []. constructor.
  - destruct (in_dec N.eq_dec NL s0) as [I|I].
    + assert (Y : exists l t, s0 = l ++ NL :: t /\ ~ In NL l).
      { clear -I. induction s0 as [|c s0 IH]; [destruct I|]. destruct (N.eq_dec c NL) as [-> |NE].
        - exists [], s0. auto.
        - destruct I as [I|I]; [congruence|]. destruct (IH I) as (l&t&->&NI). exists (c :: l), t. split; auto. intros [Z|Z]; auto. }
      destruct Y as (l&t&->&NI). rewrite app_length in L. cbn in L. destruct (IH t ltac:(lia)) as (ls&H). eexists. apply LLine; eauto.
    + destruct s0 as [|c s0]; [exists []; constructor|]. eexists. apply LLast; auto. discriminate.
Qed.
Lemma starts p s : startswith p s = true <-> exists r, s = p ++ r.
Proof.
  revert s. induction p as [|a p IH]; intros s; cbn [startswith app]; [split; eauto|].
  destruct s as [|b s]; [split; [discriminate|intros (r&E); discriminate]|].
  rewrite andb_true_iff, N.eqb_eq, IH. split.
  - intros (->&r&->). eauto.
  - intros (r&E). injection E as -> ->. eauto.
Qed.
Lemma replace_at a m n : ~ In SPACE m -> replace1 SPACE a (m ++ SPACE :: n) = m ++ a :: n.
Proof.
  induction m as [|c m IH]; intros H; cbn [app replace1].
  - rewrite N.eqb_refl. auto.
  - destruct (N.eqb_spec c SPACE) as [-> |NE]; [exfalso; apply H; left; auto|]. rewrite IH; auto. intros X; apply H; right; auto.
Qed.
Lemma split_nonempty sep s : split sep s <> [].
Proof. destruct s as [|c t]; cbn; [discriminate|]. destruct (c =? sep); [discriminate|]. destruct (split sep t); discriminate. Qed.
Lemma split_at sep a t : ~ In sep a -> split sep (a ++ sep :: t) = a :: split sep t.
Proof.
  induction a as [|c a IH]; intros H; cbn [app split].
  - rewrite N.eqb_refl. auto.
  - destruct (N.eqb_spec c sep) as [-> |NE]; [exfalso; apply H; left; auto|]. rewrite IH; auto. intros X; apply H; right; auto.
Qed.
Lemma split_last sep a : ~ In sep a -> split sep a = [a].
Proof.
  induction a as [|c a IH]; intros H; cbn [split]; auto.
  destruct (N.eqb_spec c sep) as [-> |NE]; [exfalso; apply H; left; auto|]. rewrite IH; auto. intros X; apply H; right; auto.
Qed.
Lemma starts_about maker name line : ~ In SPACE maker ->
  startswith (replace1 SPACE SEMI (camera_model maker name) ++ [SEMI]) line = true <-> about maker name line.
Proof.
  intros H. unfold camera_model, about. rewrite replace_at by auto. rewrite starts. rewrite <- app_assoc. cbn [app].
  split; intros (r&->); exists r; rewrite <- !app_assoc; cbn [app]; rewrite <- ?app_assoc; auto.
Qed.

(** ** C49 *)
(** The first line about the camera decides; the file is not changed and nothing is downloaded. *)
Theorem C49_found : forall float w net s before line after maker name a b, file w = Some s -> unix s -> fine maker name ->
  text_lines s (before ++ line :: after) -> Forall (fun l => ~ about maker name l) before -> gives float maker name line a b ->
  getSensorFromDatabase float w net (camera_model maker name) = (w, Got (Some (a, b))).
Proof.
  intros float w net s before line after maker name a b F U (PM&PN&SM) TL NB G.
  unfold getSensorFromDatabase. rewrite F. rewrite F. f_equal. rewrite (universal_unix _ U), (lines_spec _ _ TL).
  clear TL. induction NB as [|l ls NA _ IH]; cbn [app search].
  - destruct G as (size&x&y&rest&P1&P2&P3&RE&->&FX&FY).
    assert (A : startswith (replace1 SPACE SEMI (camera_model maker name) ++ [SEMI]) (maker ++ SEMI :: name ++ SEMI :: size ++ SEMI :: x ++ SEMI :: y ++ rest) = true).
    { apply starts_about; auto. eexists. reflexivity. }
    rewrite A. rewrite !split_at by auto.
    assert (E : exists more, split SEMI (y ++ rest) = y :: more).
    { destruct RE as [-> |(r&->)]; [rewrite app_nil_r, split_last; eauto|rewrite split_at; eauto]. }
    destruct E as (more&->). cbn [nth_error]. rewrite FX, FY. auto.
  - destruct (startswith _ l) eqn:E; [|exact IH]. exfalso. apply NA. apply starts_about in E; auto.
Qed.
Theorem C49_not_found : forall float w net s ls maker name, file w = Some s -> unix s -> ~ In SPACE maker -> text_lines s ls ->
  Forall (fun l => ~ about maker name l) ls -> getSensorFromDatabase float w net (camera_model maker name) = (w, Got None).
Proof.
  intros float w net s ls maker name F U SM TL NB. unfold getSensorFromDatabase. rewrite F. rewrite F. f_equal.
  rewrite (universal_unix _ U), (lines_spec _ _ TL). clear TL. induction NB as [|l ls NA _ IH]; cbn [search]; auto.
  destruct (startswith _ l) eqn:E; [|exact IH]. exfalso. apply NA. apply starts_about in E; auto.
Qed.
(** The same text, every line of [u] ending as on unix, windows or old macintoshs in [s] *)
Inductive endings : str -> str -> Prop :=
| ENil : endings [] []
| EChar c u s : c <> CR -> c <> NL -> endings u s -> endings (c :: u) (c :: s)
| EUnix u s : endings u s -> endings (NL :: u) (NL :: s)
| EWindows u s : endings u s -> endings (NL :: u) (CR :: NL :: s)
| EMac u s : (forall t, s <> NL :: t) -> endings u s -> endings (NL :: u) (CR :: s).
Lemma endings_universal u s : endings u s -> universal s = u /\ universal u = u.
Proof.
  induction 1 as [|c u s C N H (A&B)|u s H (A&B)|u s H (A&B)|u s N H (A&B)]; auto; cbn [universal].
  - rewrite (proj2 (N.eqb_neq c CR) C), A, B. auto.
  - change (NL =? CR) with false. cbn iota. rewrite A, B. auto.
  - change (NL =? CR) with false. change (CR =? CR) with true. change (NL =? NL) with true. cbn iota. rewrite A, B. auto.
  - change (NL =? CR) with false. change (CR =? CR) with true. cbn iota. rewrite B. split; auto.
    destruct s as [|d s]; [inversion H; auto|]. destruct (N.eqb_spec d NL) as [-> |ND]; [exfalso; eapply N; reflexivity|].
    rewrite A. auto.
Qed.
(** The line endings of the file make no difference. *)
Theorem C49_line_endings : forall float n net u s model, endings u s ->
  snd (getSensorFromDatabase float (World (Some s) n) net model) = snd (getSensorFromDatabase float (World (Some u) n) net model).
Proof.
  intros float n net u s model H. unfold getSensorFromDatabase. cbn [file snd]. destruct (endings_universal _ _ H) as (->& ->). auto.
Qed.
Example C49_line_endings_example : endings [65; NL; 66; NL; 67; NL] [65; CR; NL; 66; NL; 67; CR].
Proof. repeat constructor; discriminate. Qed.
(** Without a file, a page that arrives is stored and searched as if it had been there. *)
Theorem C49_download : forall float w s model, file w = None ->
  let w' := World (Some s) (S (downloads w)) in
  getSensorFromDatabase float w (Page s) model = getSensorFromDatabase float w' (Stop []) model /\
  fst (getSensorFromDatabase float w (Page s) model) = w'.
Proof. intros float w s model F w'. unfold getSensorFromDatabase. rewrite F. cbn. auto. Qed.
(** In any history of lookups at most one download, and a file that exists is never changed. *)
Lemma keeps float w net model s : file w = Some s -> fst (getSensorFromDatabase float w net model) = w.
Proof. intros F. unfold getSensorFromDatabase. rewrite F. auto. Qed.
Lemma lookups_keep float evs : forall w s, file w = Some s -> fst (lookups float w evs) = w.
Proof.
  induction evs as [|(n&m) evs IH]; intros w s F; cbn [lookups]; auto.
  pose proof (keeps float w n m s F) as K. destruct (getSensorFromDatabase float w n m) as (w1&r). cbn in K. subst w1.
  specialize (IH w s F). destruct (lookups float w evs). exact IH.
Qed.
Theorem C49_once : forall float w evs, let w' := fst (lookups float w evs) in
  (downloads w' <= S (downloads w))%nat /\ (forall s, file w = Some s -> w' = w) /\
  (evs <> [] -> file w = None -> downloads w' = S (downloads w)).
Proof.
  intros float w evs w'. assert (K : forall s, file w = Some s -> w' = w) by (intros s; apply lookups_keep).
  assert (X : file w = None -> evs <> [] -> downloads w' = S (downloads w)).
  { intros F NE. unfold w'. destruct evs as [|(n&m) evs]; [congruence|]. cbn [lookups].
    assert (Y : exists s, fst (getSensorFromDatabase float w n m) = World (Some s) (S (downloads w))).
    { unfold getSensorFromDatabase. rewrite F. destruct n; cbn; eauto. }
    destruct Y as (s&Y). destruct (getSensorFromDatabase float w n m) as (w1&r). cbn in Y. subst w1.
    pose proof (lookups_keep float evs (World (Some s) (S (downloads w))) s eq_refl) as Z. destruct (lookups float _ evs). cbn in *. subst. reflexivity. }
  split; [|split]; auto.
  destruct (file w) as [s|] eqn:F; [rewrite (K s eq_refl); lia|]. destruct evs; [cbn in *; lia|]. rewrite X; auto. discriminate.
Qed.
(** ** Exif *)
Open Scope R_scope.
(** A camera of the database *)
Theorem C49_exif_database : forall float w net s before line after maker name a b x fn fd W H FN FD,
  file w = Some s -> unix s -> fine maker name ->
  text_lines s (before ++ line :: after) -> Forall (fun l => ~ about maker name l) before -> gives float maker name line a b ->
  x_model x = Some (camera_model maker name) -> x_focal x = Some (TPair fn fd) -> rep fn FN -> rep fd FD -> FD <> 0 ->
  x_width x = Some W -> x_height x = Some H ->
  exists f, getCameraParametersFromExif float w net (Some x) true = (w, Got (f, (a, b), (W, H))) /\ rep f (FN / FD).
Proof.
  intros float w net s before line after maker name a b x fn fd W H FN FD HF U FI TL NB G XM XF RN RD NZ XW XH.
  exists (fn / fd)%num. split; [|apply rep_div; auto].
  unfold getCameraParametersFromExif. rewrite XF. cbn [ratio]. unfold pydiv. rewrite (rep_eqb _ _ _ _ RD (rep_Fin 0)).
  rewrite Reqb_false by auto. cbn [negb]. rewrite XM.
  rewrite (C49_found float w net s before line after maker name a b HF U FI TL NB G). cbn [bindo]. rewrite XW, XH. reflexivity.
Qed.
(** A camera that is not in the database: the sensor size follows from the resolution in the focal plane, given in
    pixels per inch (an inch has 25.4 mm). *)
Theorem C49_exif_resolution : forall float w net s ls maker name x fn fd W H FN FD w1 h1 xn xd yn yd XN XD YN YD,
  file w = Some s -> unix s -> ~ In SPACE maker -> text_lines s ls -> Forall (fun l => ~ about maker name l) ls ->
  x_model x = Some (camera_model maker name) -> x_focal x = Some (TPair fn fd) -> rep fn FN -> rep fd FD -> FD <> 0 ->
  x_width x = Some W -> x_height x = Some H -> rep W w1 -> rep H h1 ->
  x_xres x = Some (TPair xn xd) -> x_yres x = Some (TPair yn yd) ->
  rep xn XN -> rep xd XD -> rep yn YN -> rep yd YD -> XN <> 0 -> XD <> 0 -> YN <> 0 -> YD <> 0 ->
  exists f a b A B, getCameraParametersFromExif float w net (Some x) true = (w, Got (f, (a, b), (W, H))) /\ rep f (FN / FD) /\
    rep a A /\ rep b B /\ A / (254 / 10) * (XN / XD) = w1 /\ B / (254 / 10) * (YN / YD) = h1.
Proof.
  intros float w net s ls maker name x fn fd W H FN FD w1 h1 xn xd yn yd XN XD YN YD HF U SM TL NB XM XF RN RD NZ XW XH RW RH XX XY RXN RXD RYN RYD N1 N2 N3 N4.
  exists (fn / fd)%num, (W / (xn / xd) * Fin (254 / 10))%num, (H / (yn / yd) * Fin (254 / 10))%num,
    (w1 / (XN / XD) * (254 / 10)), (h1 / (YN / YD) * (254 / 10)).
  assert (QX : XN / XD <> 0) by (unfold Rdiv; apply Rmult_integral_contrapositive_currified; auto; apply Rinv_neq_0_compat; auto).
  assert (QY : YN / YD <> 0) by (unfold Rdiv; apply Rmult_integral_contrapositive_currified; auto; apply Rinv_neq_0_compat; auto).
  assert (PX : rep (xn / xd)%num (XN / XD)) by (apply rep_div; auto).
  assert (PY : rep (yn / yd)%num (YN / YD)) by (apply rep_div; auto).
  splits.
  - unfold getCameraParametersFromExif. rewrite XF. cbn [ratio]. unfold pydiv at 1. rewrite (rep_eqb _ _ _ _ RD (rep_Fin 0)).
    rewrite Reqb_false by auto. cbn [negb]. rewrite XM.
    rewrite (C49_not_found float w net s ls maker name HF U SM TL NB). cbn [bindo]. rewrite XW, XH, XX, XY. unfold plane. cbn [key bindo ratio]. unfold pydiv.
    rewrite (rep_eqb _ _ _ _ RXD (rep_Fin 0)), (rep_eqb _ _ _ _ RYD (rep_Fin 0)), !Reqb_false by auto. cbn [bindo].
    rewrite (rep_eqb _ _ _ _ PX (rep_Fin 0)), (rep_eqb _ _ _ _ PY (rep_Fin 0)), !Reqb_false by auto. reflexivity.
  - apply rep_div; auto.
  - apply rep_mul; [apply rep_div; auto|apply rep_Fin].
  - apply rep_mul; [apply rep_div; auto|apply rep_Fin].
  - field. repeat split; auto; lra.
  - field. repeat split; auto; lra.
Qed.
(** ** What is false *)
Definition ex_float (s : str) : option num :=
  if str_eqb s (text "22.3") then Some (Fin (223 / 10)) else if str_eqb s (text "14.9") then Some (Fin (149 / 10)) else None.
Definition canon := text "Canon". Definition eos := text "EOS 50D".
Definition ex_line : str := text "Canon;EOS 50D;22.3 x 14.9 mm;22.3;14.9;15.5".
Lemma ex_gives : gives ex_float canon eos ex_line (Fin (223 / 10)) (Fin (149 / 10)).
Proof.
  assert (P : forall s, (if in_dec N.eq_dec SEMI s then false else true) = true -> plain s).
  { intros s. unfold plain. destruct (in_dec _ _ _); [discriminate|auto]. }
  exists (text "22.3 x 14.9 mm"), (text "22.3"), (text "14.9"), (text ";15.5").
  splits; try (apply P; vm_compute; reflexivity); try reflexivity. right. exists (text "15.5"). reflexivity.
Qed.
Lemma ex_fine : fine canon eos.
Proof. unfold fine, plain. splits; vm_compute; intuition discriminate. Qed.
(** After a failed download every later lookup returns None, whatever the server offers by then. *)
Lemma lookups_stuck float s evs : forall w, file w = Some s -> Forall (fun e => search float (replace1 SPACE SEMI (snd e) ++ [SEMI])%list (lines (universal s)) = Got None) evs ->
  Forall (fun r => r = Got None) (snd (lookups float w evs)).
Proof.
  induction evs as [|(n&m) evs IH]; intros w F H; cbn [lookups]; [constructor|]. inversion H as [|? ? H1 H2]; subst. cbn [snd] in H1.
  unfold getSensorFromDatabase. rewrite F. rewrite F, H1. specialize (IH w F H2). destruct (lookups float w evs). constructor; auto.
Qed.
Theorem C49_failed_download_refuted : exists w1,
  snd (getSensorFromDatabase ex_float (World None 0) (Page ex_line) (camera_model canon eos)) = Got (Some (Fin (223 / 10), Fin (149 / 10))) /\
  getSensorFromDatabase ex_float (World None 0) (Stop []) (camera_model canon eos) = (w1, Raised) /\
  forall evs, Forall (fun r => r = Got None) (snd (lookups ex_float w1 evs)).
Proof.
  eexists. split; [|split; [reflexivity|]].
  - destruct (C49_download ex_float (World None 0) ex_line (camera_model canon eos) eq_refl) as (E&_). rewrite E.
    rewrite (C49_found ex_float _ _ ex_line [] ex_line [] canon eos (Fin (223 / 10)) (Fin (149 / 10))); auto using ex_fine, ex_gives.
    + vm_compute. intuition discriminate.
    + apply LLast; vm_compute; intuition discriminate.
  - intros evs. apply (lookups_stuck _ []); auto. apply Forall_forall. reflexivity.
Qed.
(** The same with the page of a server error, which is stored as the database. *)
Theorem C49_error_page_refuted : exists w1,
  getSensorFromDatabase ex_float (World None 0) (Page (text "404: Not Found")) (camera_model canon eos) = (w1, Got None) /\
  forall evs, Forall (fun e => exists m n, snd e = camera_model m n /\ fine m n) evs ->
    Forall (fun r => r = Got None) (snd (lookups ex_float w1 evs)).
Proof.
  eexists. split; [reflexivity|]. intros evs H. apply (lookups_stuck _ (text "404: Not Found")); auto.
  apply Forall_forall. intros e I. rewrite Forall_forall in H. destruct (H e I) as (m&n&->&_&_&SM).
  assert (NA : ~ about m n (text "404: Not Found")).
  { intros (r&E). assert (J : In SEMI (text "404: Not Found")) by (rewrite E; apply in_or_app; right; left; auto). vm_compute in J. intuition discriminate. }
  change (lines (universal (text "404: Not Found"))) with [text "404: Not Found"]. cbn [search].
  destruct (startswith _ _) eqn:X; [|reflexivity]. apply starts_about in X; auto. contradiction.
Qed.
(** A model tag without a space is looked up among the makers: "Canon" finds the EOS 50D. *)
Theorem C49_maker_refuted : exists w model a b, file w = Some ex_line /\ plain model /\ ~ In SPACE model /\
  snd (getSensorFromDatabase ex_float w (Stop []) model) = Got (Some (a, b)) /\ ~ (exists maker name, model = camera_model maker name).
Proof.
  exists (World (Some ex_line) 0), canon, (Fin (223 / 10)), (Fin (149 / 10)). splits; try reflexivity.
  - apply ex_fine.
  - apply ex_fine.
  - intros (m&n&E). destruct ex_fine as (_&_&H). apply H. rewrite E. apply in_or_app. right. left. auto.
Qed.
(** With sensor_from_database=False the call always fails, however complete the tags are. *)
Definition ex_exif : exif :=
  Exif (Some (TPair (Fin 400) (Fin 1))) (Some (camera_model canon eos)) (Some (Fin 4752)) (Some (Fin 3168))
       (Some (TPair (Fin 4752000) (Fin 894))) (Some (TPair (Fin 3168000) (Fin 597))) (Some 2%N).
Theorem C49_no_database_refuted : (exists x, x_focal x <> None /\ x_width x <> None /\ x_height x <> None /\ x_xres x <> None /\ x_yres x <> None) /\
  forall float w net info, snd (getCameraParametersFromExif float w net info false) = Raised.
Proof.
  split; [exists ex_exif; splits; discriminate|]. intros float w net [x|]; [|reflexivity].
  unfold getCameraParametersFromExif. destruct (ratio (x_focal x)); reflexivity.
Qed.
(** FocalPlaneResolutionUnit is ignored: with 200 pixels per centimetre (unit 3), 4000 pixels are 20 cm wide; the result is
    508 mm. *)
Theorem C49_unit_refuted : exists w x f a b A size, x_unit x = Some 3%N /\ x_xres x = Some (TPair (Fin 200) (Fin 1)) /\ x_width x = Some (Fin 4000) /\
  getCameraParametersFromExif ex_float w (Stop []) (Some x) true = (w, Got (f, (a, b), size)) /\ rep a A /\ A / 10 * 200 <> 4000.
Proof.
  set (x := Exif (Some (TPair (Fin 50) (Fin 1))) (Some (camera_model canon (text "X"))) (Some (Fin 4000)) (Some (Fin 3000))
       (Some (TPair (Fin 200) (Fin 1))) (Some (TPair (Fin 200) (Fin 1))) (Some 3%N)).
  destruct (C49_exif_resolution ex_float (World (Some []) 0) (Stop []) [] [] canon (text "X") x (Fin 50) (Fin 1) (Fin 4000) (Fin 3000) 50 1 4000 3000
    (Fin 200) (Fin 1) (Fin 200) (Fin 1) 200 1 200 1) as (f&a&b&A&B&E&_&RA&_&EA&_); try reflexivity; try lra; try (constructor; fail);
    try (vm_compute; intuition discriminate; fail).
  - exists (World (Some []) 0), x, f, a, b, A, (Fin 4000, Fin 3000). splits; auto. intros X.
    assert (A = 508) by lra. lra.
Qed.
Print Assumptions C49_found.
Print Assumptions C49_not_found.
Print Assumptions C49_download.
Print Assumptions C49_line_endings.
Print Assumptions C49_once.
Print Assumptions C49_exif_database.
Print Assumptions C49_exif_resolution.
Print Assumptions C49_failed_download_refuted.
Print Assumptions C49_error_page_refuted.
Print Assumptions C49_maker_refuted.
Print Assumptions C49_no_database_refuted.
Print Assumptions C49_unit_refuted.
(** A database of two lines; the EOS 50D in the second. *)
Definition ex_db : str := (text "Canon;EOS 5D;36 x 24 mm;36;24" ++ NL :: ex_line)%list.
Example C49_example : unix ex_db /\ fine canon eos /\
  text_lines ex_db ([(text "Canon;EOS 5D;36 x 24 mm;36;24" ++ [NL])%list] ++ ex_line :: []) /\
  Forall (fun l => ~ about canon eos l) [(text "Canon;EOS 5D;36 x 24 mm;36;24" ++ [NL])%list] /\
  gives ex_float canon eos ex_line (Fin (223 / 10)) (Fin (149 / 10)).
Proof.
  splits.
  - vm_compute. intuition discriminate.
  - apply ex_fine.
  - apply LLine; [vm_compute; intuition discriminate|]. apply LLast; vm_compute; intuition discriminate.
  - constructor; [|constructor]. intros (r&E). vm_compute in E. discriminate.
  - apply ex_gives.
Qed.
