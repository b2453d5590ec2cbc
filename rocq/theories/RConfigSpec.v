(* Configuration variables, independent of the implementation *)
From Coq Require Import Strings.Ascii Strings.String.
From Verif Require Import Base TextModel ParseModel RConfigModel.
Open Scope N_scope.

(* the most recent value in a list of assignments; the first value in a list of alternatives *)
Fixpoint last_value (l : list (bytes * bytes)) (k : bytes) : option bytes :=
  match l with
  | [] => None
  | (k', v) :: r => match last_value r k with Some x => Some x | None => if list_eq_dec N.eq_dec k' k then Some v else None end
  end.
Fixpoint first_some {A} (l : list (option A)) : option A := match l with [] => None | Some x :: _ => Some x | None :: r => first_some r end.

(* histories of API calls: assignments by set/import, by preset, and the last allow_read_env *)
Definition set_of (o : cop) : list (bytes * bytes) := match o with OSet k v => [(k, v)] | OImport l => l | _ => [] end.
Definition preset_of (o : cop) : list (bytes * bytes) := match o with OPreset k v => [(k, v)] | _ => [] end.
Definition sets (h : list cop) : list (bytes * bytes) := flat_map set_of h.
Definition presets (h : list cop) : list (bytes * bytes) := flat_map preset_of h.
Definition env_allowed (h : list cop) : bool := fold_left (fun b o => match o with OAllow b' => b' | _ => b end) h true.
(* the first query (get or init) reads the profiles *)
Definition query (o : cop) : option world := match o with OGet w _ _ => Some w | OInit w _ _ => Some w | _ => None end.
Fixpoint setup (h : list cop) : list cop := match h with [] => [] | o :: r => match query o with Some _ => [] | None => o :: setup r end end.
Fixpoint later (h : list cop) : list cop := match h with [] => [] | o :: r => match query o with Some _ => h | None => later r end end.
Definition first_world (h : list cop) (w : world) : world := match later h with o :: _ => match query o with Some w0 => w0 | None => w end | [] => w end.
(* a set that was initialised before *)
Definition initialised (h : list cop) (name : bytes) : Prop := exists w l, In (OInit w name l) h.
(* the variable CALI_NAME_KEY *)
Definition upper (c : N) : N := if (97 <=? c) && (c <=? 122) then c - 32 else c.
Definition var (name key : bytes) : bytes := bs "CALI_" ++ map upper name ++ bs "_" ++ map upper key.

(* the precedence of the sources *)
Definition precedence (s : option bytes) (e : option bytes) (p : option bytes) (d : bytes) : bytes :=
  match first_some [s; e; p] with Some v => v | None => d end.
Definition default_of (l : list (bytes * bytes)) (k : bytes) : option bytes := lookup l k.
Definition env_of (allowed : bool) (w : world) (x : bytes) : option bytes := if allowed then w_env w x else None.
(* a table of profiles: profile name, variable *)
Definition table := bytes -> bytes -> option bytes.
(* a profile exists if it was read from a file or is "default" *)
Definition selected (P : table) (names : list bytes) (x : bytes) : option bytes := first_some (map (fun n => P n x) (rev names)).

(* ---------- files ---------- *)
(* the lines of a configuration file *)
Inductive citem := CHead (n : bytes) | CHeadSet (n k w : bytes) | CSet (k w : bytes) | CSkip.
(* # ... [name] ... *)
Definition header (line n : bytes) : Prop := exists a b, line = 35 :: a ++ 91 :: n ++ 93 :: b /\ ~ In 91 a /\ ~ In 93 a /\ n <> [] /\ ~ In 93 n.
(* NAME=VALUE; the value is the first word behind the = (see C36 for the words) *)
Definition assigns (line k w : bytes) : Prop := exists t, line = k ++ 61 :: t /\ k <> [] /\ ~ In 61 k /\ w = fst (read_word [] (s_open t)).
Definition item_of (line : bytes) (it : citem) : Prop :=
  match it with
  | CHead n => header line n /\ ~ exists k w, assigns line k w
  | CHeadSet n k w => header line n /\ assigns line k w
  | CSet k w => hd 0 line <> 35 /\ assigns line k w
  | CSkip => hd 0 line = 35 /\ ~ (exists n, header line n) \/ hd 0 line <> 35 /\ ~ exists k w, assigns line k w
  end.
(* profile sections: the name and the assignments, in order; what comes before the first header is "default" *)
Fixpoint sections (n : bytes) (l : list (bytes * bytes)) (its : list citem) : list (bytes * list (bytes * bytes)) * (bytes * list (bytes * bytes)) :=
  match its with
  | [] => ([], (n, l))
  | CSkip :: r => sections n l r
  | CSet k w :: r => sections n (l ++ [(k, w)]) r
  | CHead m :: r => let (a, b) := sections m [] r in ((n, l) :: a, b)
  | CHeadSet m k w :: r => let (a, b) := sections m [(k, w)] r in ((n, l) :: a, b)
  end.
(* the value that a section gives to variable x of profile n *)
Definition section_value (n x : bytes) (s : bytes * list (bytes * bytes)) : option bytes := if list_eq_dec N.eq_dec (fst s) n then last_value (snd s) x else None.
Definition table_of (all : assoc profile) : table := fun n x => match lookup all n with Some p => lookup p x | None => None end.

(* ---------- which profiles are read and selected ---------- *)
Definition v_file : bytes := bs "CALI_CONFIG_FILE".
Definition v_profile : bytes := bs "CALI_CONFIG_PROFILE".
Definition words (v : bytes) : list bytes := to_stringlist [c_comma] v.
(* the files, in the order in which they are read *)
Definition config_files (h : list cop) (w : world) : list bytes :=
  let h1 := setup h in
  words (precedence (last_value (sets h1) v_file) (env_of (env_allowed h1) w v_file) (last_value (presets h1) v_file) (bs "caliper.config")).
(* the profiles in the builtin text and these files *)
Definition profile_table (builtin : bytes) (h : list cop) (w : world) : table := table_of (read_files builtin w (config_files h w) []).
(* the selected profiles *)
Definition config_profiles (builtin : bytes) (h : list cop) (w : world) : list bytes :=
  let h1 := setup h in
  words (precedence (last_value (sets h1) v_profile) (env_of (env_allowed h1) w v_profile)
           (first_some [profile_table builtin h w (bs "default") v_profile; last_value (presets h1) v_profile]) (bs "default")).
(* the profile value of a variable: values preset after the profiles were read, the selected profiles, the last
   one first, the default profile, and values preset before *)
Definition profile_value (builtin : bytes) (h : list cop) (w : world) (x : bytes) : option bytes :=
  let P := profile_table builtin h w in
  first_some [last_value (presets (later h)) x; selected P (config_profiles builtin h w) x; P (bs "default") x; last_value (presets (setup h)) x].
