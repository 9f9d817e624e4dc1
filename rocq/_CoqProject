-Q theories Verif
theories/M_Build.v
theories/S_Build.v
theories/P_Build.v
theories/P_Build2.v
theories/P_Build3.v
theories/P_Build4.v
theories/P_BuildLive.v
theories/P_BuildProg.v
theories/P_BuildRun.v
theories/P_Build5.v
theories/T_Build.v
theories/M_Cycle.v
theories/S_Cycle.v
theories/P_Cycle.v
theories/T_Cycle.v
theories/M_Array.v
theories/M_Sort.v
theories/S_Sort.v
theories/P_Sort.v
theories/T_Sort.v
theories/M_Queue.v
theories/S_Queue.v
theories/P_Queue.v
theories/T_Queue.v
theories/M_Path.v
theories/S_Path.v
theories/P_Path.v
theories/P_Path2.v
theories/P_Path3.v
theories/T_Path.v
theories/M_Names.v
theories/P_Names.v
theories/T_Names.v
theories/M_Glob.v
theories/S_Glob.v
theories/P_Glob.v
theories/T_Glob.v
theories/M_Lev.v
theories/S_Lev.v
theories/P_Lev.v
theories/P_Near.v
theories/T_Lev.v
theories/M_Args.v
theories/S_Args.v
theories/P_Args.v
theories/T_Args.v
theories/M_Bytes.v
theories/M_Stream.v
theories/P_Stream.v
theories/T_Stream.v
theories/M_Pack.v
theories/P_Pack.v
theories/T_Pack.v
theories/M_Pool.v
theories/S_Pool.v
theories/P_Pool.v
theories/P_Sba.v
theories/T_Pool.v
theories/M_Crc.v
theories/S_Crc.v
theories/P_Crc.v
theories/T_Crc.v
theories/M_Msg.v
theories/S_Msg.v
theories/P_Msg.v
theories/T_Msg.v
theories/M_Codec.v
theories/P_Codec.v
theories/M_Manifest.v
theories/S_Manifest.v
theories/P_Manifest.v
theories/T_Manifest.v
theories/M_Conf.v
theories/S_Conf.v
theories/P_Conf.v
theories/T_Conf.v
theories/M_Db.v
theories/S_Db.v
theories/P_Db.v
theories/P_DbFile.v
theories/T_Db.v
theories/P_BuildIncl.v
theories/M_Remote.v
theories/S_Remote.v
theories/P_Remote.v
theories/T_Remote.v
theories/M_SendQ.v
theories/S_SendQ.v
theories/T_SendQ.v
theories/M_Cond.v
theories/S_Cond.v
theories/P_Cond.v
theories/T_Cond.v
theories/S_Cache.v
theories/M_Cache.v
theories/T_Cache.v
theories/M_Resolve.v
theories/S_Resolve.v
theories/T_Resolve.v
theories/M_Unity.v
theories/S_Unity.v
theories/P_Unity.v
theories/T_Unity.v
theories/M_Incl.v
theories/S_Incl.v
theories/P_Incl.v
theories/P_Incl2.v
theories/T_Incl.v
theories/M_Net.v
theories/S_Net.v
theories/P_Net.v
theories/T_Net.v
theories/M_Dist.v
theories/S_Dist.v
theories/P_Dist.v
theories/T_Dist.v
theories/M_Sync.v
theories/S_Sync.v
theories/P_Sync.v
theories/T_Sync.v
theories/M_Scope.v
theories/S_Scope.v
theories/P_Scope.v
theories/P_Scope2.v
theories/T_Scope.v
theories/S_Assign.v
theories/P_Assign.v
theories/P_Assign2.v
theories/T_Assign.v
theories/M_Migrate.v
theories/S_Migrate.v
theories/P_Migrate.v
theories/P_Migrate2.v
theories/P_Migrate3.v
theories/P_Migrate4.v
theories/P_Migrate5.v
theories/P_MigrateCase.v
theories/T_Migrate.v
theories/M_Tok.v
theories/S_Tok.v
theories/S_Doc.v
theories/P_Tok.v
theories/P_Tok2.v
theories/P_Tok3.v
theories/P_Tok4.v
theories/P_Tok5.v
theories/P_Tok6.v
theories/P_Tok7.v
theories/P_Tok8.v
theories/P_Tok9.v
theories/T_Tok.v
theories/M_Light.v
theories/S_Light.v
theories/P_Light.v
theories/P_Light2.v
theories/P_Light3.v
theories/T_Light.v
theories/M_Probe.v
theories/P_Probe.v
theories/T_Probe.v
theories/M_Drv.v
theories/S_Drv.v
theories/P_Drv.v
theories/P_Drv2.v
theories/P_Drv3.v
theories/P_Drv4.v
theories/P_Drv5.v
theories/P_Drv6.v
theories/T_Drv.v
theories/M_Flags.v
theories/S_Flags.v
theories/P_Flags.v
theories/T_Flags.v
theories/M_Fix.v
theories/S_Fix.v
theories/P_Fix.v
theories/T_Fix.v
theories/P_Light4.v
theories/M_Dir.v
theories/S_Dir.v
theories/P_Dir.v
theories/P_Dir2.v
theories/P_Dir3.v
theories/T_Dir.v
theories/M_Objs.v
theories/S_Objs.v
theories/P_Objs.v
theories/P_Objs2.v
theories/T_Objs.v
theories/M_Str.v
theories/S_Str.v
theories/P_Str.v
theories/P_Str2.v
theories/P_Str3.v
theories/P_Str4.v
theories/P_Str5.v
theories/T_Str.v
theories/M_Props.v
theories/S_Props.v
theories/P_Props.v
theories/P_Props2.v
theories/P_Props3.v
theories/P_Props4.v
theories/P_Props5.v
theories/T_Props.v
theories/M_Avail.v
theories/S_Avail.v
theories/T_Avail.v
theories/M_Needy.v
theories/S_Needy.v
theories/P_Needy.v
theories/P_Needy2.v
theories/T_Needy.v
theories/M_Link.v
theories/S_Link.v
theories/P_Link.v
theories/P_Link2.v
theories/P_Link3.v
theories/P_Link4.v
theories/T_Link.v
theories/M_Conns.v
theories/S_Conns.v
theories/P_Conns.v
theories/P_Conns2.v
theories/P_Conns3.v
theories/P_Conns4.v
theories/T_Conns.v
theories/M_Opts.v
theories/S_Opts.v
theories/P_Opts.v
theories/T_Opts.v
theories/M_Compdb.v
theories/S_Compdb.v
theories/P_Compdb.v
theories/P_Compdb2.v
theories/P_Compdb3.v
theories/T_Compdb.v
theories/M_Broker.v
theories/S_Broker.v
theories/P_Broker.v
theories/P_Broker2.v
theories/P_Broker3.v
theories/T_Broker.v
theories/M_Cli.v
theories/S_Cli.v
theories/P_Cli.v
theories/P_Cli2.v
theories/P_Cli3.v
theories/T_Cli.v
theories/M_Xcode.v
theories/S_Xcode.v
theories/P_Xcode.v
theories/P_Xcode2.v
theories/P_Xcode3.v
theories/P_Xcode4.v
theories/P_Xcode5.v
theories/T_Xcode.v
theories/P_Broker4.v
theories/M_Proc.v
theories/S_Proc.v
theories/P_Proc.v
theories/P_Proc2.v
theories/P_Proc3.v
theories/P_Proc4.v
theories/T_Proc.v
theories/M_Vcx.v
theories/S_Vcx.v
theories/P_Vcx.v
theories/P_Vcx2.v
theories/P_Vcx3.v
theories/T_Vcx.v
theories/M_Sln.v
theories/S_Sln.v
theories/P_Sln.v
theories/P_Sln2.v
theories/T_Sln.v
theories/M_TPool.v
theories/S_TPool.v
theories/P_TPool.v
theories/P_TPool2.v
theories/T_TPool.v
theories/M_Copy.v
theories/S_Copy.v
theories/P_Copy.v
theories/T_Copy.v
theories/M_Stats.v
theories/S_Stats.v
theories/P_Stats.v
theories/T_Stats.v
theories/M_Idle.v
theories/T_Idle.v
theories/M_LDep.v
theories/T_LDep.v
theories/M_Ensure.v
theories/T_Ensure.v
theories/M_FStr.v
theories/T_FStr.v
theories/M_Single.v
theories/T_Single.v
