-Q theories Verif
theories/Alias_pot.v
theories/Alias_proof.v
theories/Alias_props.v
theories/Alias_spec.v
theories/Alias_word.v
theories/Alias_wp.v
theories/Aliascmd_model.v
theories/Aliascmd_proof.v
theories/Aliascmd_props.v
theories/Aliascmd_spec.v
theories/Alloc_model.v
theories/Alloc_proof.v
theories/Alloc_props.v
theories/Alloc_spec.v
theories/Arith_model.v
theories/Arith_proof.v
theories/Arith_props.v
theories/Arith_spec.v
theories/Arith_tok.v
theories/Base.v
theories/Brace_model.v
theories/Brace_proof.v
theories/Brace_props.v
theories/Brace_spec.v
theories/Cd_inst.v
theories/Cd_model.v
theories/Cd_proof.v
theories/Cd_props.v
theories/Cd_spec.v
theories/Cd_step.v
theories/Columns_model.v
theories/Columns_props.v
theories/Complete_model.v
theories/Complete_proof.v
theories/Complete_props.v
theories/Complete_spec.v
theories/Emacs_keys.v
theories/Emacs_kill.v
theories/Emacs_model.v
theories/Emacs_pop.v
theories/Emacs_proof.v
theories/Emacs_props.v
theories/Emacs_spec.v
theories/Emcmd_proof.v
theories/Emcmd_props.v
theories/Emcmd_spec.v
theories/Exec_model.v
theories/Exec_proof.v
theories/Exec_props.v
theories/Exec_spec.v
theories/Expand_fields.v
theories/Expand_model.v
theories/Expand_proof.v
theories/Expand_props.v
theories/Expand_spec.v
theories/Findcom_model.v
theories/Findcom_proof.v
theories/Findcom_props.v
theories/Findcom_spec.v
theories/Glob_model.v
theories/Glob_proof.v
theories/Glob_props.v
theories/Glob_spec.v
theories/Here_props.v
theories/Here_spec.v
theories/History_model.v
theories/History_proof.v
theories/History_props.v
theories/History_spec.v
theories/Jobs_model.v
theories/Jobs_proof.v
theories/Jobs_props.v
theories/Jobs_spec.v
theories/Justify_model.v
theories/Justify_proof.v
theories/Justify_props.v
theories/Justify_spec.v
theories/Kill_model.v
theories/Kill_proof.v
theories/Kill_props.v
theories/Kill_spec.v
theories/Lex_fuel.v
theories/Lex_model.v
theories/Lex_props.v
theories/Lex_sim.v
theories/Lex_spec.v
theories/Mail_model.v
theories/Mail_proof.v
theories/Mail_props.v
theories/Mail_spec.v
theories/Num_model.v
theories/Num_proof.v
theories/Num_props.v
theories/Num_spec.v
theories/Opt_flags.v
theories/Opt_model.v
theories/Opt_proof.v
theories/Opt_props.v
theories/Opt_spec.v
theories/Pathglob_model.v
theories/Pathglob_proof.v
theories/Pathglob_props.v
theories/Pathglob_spec.v
theories/Print_model.v
theories/Print_proof.v
theories/Print_props.v
theories/Print_spec.v
theories/Printf_model.v
theories/Printf_proof.v
theories/Printf_props.v
theories/Printf_spec.v
theories/Prompt_model.v
theories/Prompt_proof.v
theories/Prompt_props.v
theories/Prompt_spec.v
theories/Quote_model.v
theories/Quote_props.v
theories/Read_model.v
theories/Read_proof.v
theories/Read_props.v
theories/Read_spec.v
theories/Redir_model.v
theories/Redir_proof.v
theories/Redir_props.v
theories/Redir_spec.v
theories/Search_model.v
theories/Search_proof.v
theories/Search_props.v
theories/Search_spec.v
theories/Select_model.v
theories/Select_proof.v
theories/Select_props.v
theories/Select_spec.v
theories/ShfStr_model.v
theories/ShfStr_props.v
theories/ShfStr_spec.v
theories/Shf_model.v
theories/Shf_proof.v
theories/Shf_props.v
theories/Shf_spec.v
theories/Shift_model.v
theories/Shift_props.v
theories/SimplifyPath_model.v
theories/SimplifyPath_proof.v
theories/SimplifyPath_props.v
theories/SimplifyPath_spec.v
theories/Special_flush.v
theories/Special_follow.v
theories/Special_model.v
theories/Special_proof.v
theories/Special_props.v
theories/Special_spec.v
theories/Special_time.v
theories/Src_model.v
theories/Src_proof.v
theories/Src_props.v
theories/Src_spec.v
theories/StripNuls_model.v
theories/StripNuls_proof.v
theories/StripNuls_props.v
theories/Syn_model.v
theories/Syn_proof.v
theories/Syn_props.v
theories/Syn_spec.v
theories/Table_model.v
theories/Table_proof.v
theories/Table_props.v
theories/Table_spec.v
theories/Test_model.v
theories/Test_proof.v
theories/Test_props.v
theories/Test_spec.v
theories/Tilde_model.v
theories/Tilde_proof.v
theories/Tilde_props.v
theories/Tilde_spec.v
theories/Timehook_model.v
theories/Timehook_proof.v
theories/Timehook_props.v
theories/Times_model.v
theories/Times_proof.v
theories/Times_props.v
theories/Times_spec.v
theories/Tput_expand.v
theories/Tput_model.v
theories/Tput_proof.v
theories/Tput_props.v
theories/Tput_spec.v
theories/Trap_model.v
theories/Trap_proof.v
theories/Trap_props.v
theories/Trap_run.v
theories/Trap_spec.v
theories/Trim_model.v
theories/Trim_proof.v
theories/Trim_props.v
theories/Trim_spec.v
theories/Ulimit_kernel.v
theories/Ulimit_model.v
theories/Ulimit_proof.v
theories/Ulimit_props.v
theories/Ulimit_spec.v
theories/Umask_model.v
theories/Umask_proof.v
theories/Umask_props.v
theories/Umask_spec.v
theories/Var_array.v
theories/Var_env.v
theories/Var_inv.v
theories/Var_model.v
theories/Var_proof.v
theories/Var_props.v
theories/Var_refuse.v
theories/Var_spec.v
theories/Var_typed.v
theories/Vi_frame.v
theories/Vi_inv.v
theories/Vi_keep.v
theories/Vi_model.v
theories/Vi_proof.v
theories/Vi_props.v
theories/Vi_spec.v
theories/Vi_step.v
theories/Viline_proof.v
theories/Viline_props.v
theories/Viline_spec.v
theories/Viundo_proof.v
theories/Viundo_props.v
theories/Viundo_spec.v
theories/Whence_model.v
theories/Whence_proof.v
theories/Whence_props.v
theories/Whence_spec.v
theories/Word_model.v
theories/Word_props.v
theories/Word_spec.v
theories/XString_model.v
theories/XString_props.v
theories/XString_spec.v
