-Q theories Verif
theories/Str.v
theories/Data.v
theories/Tarmi.v
theories/Rafsi.v
theories/Core.v
theories/Api.v
theories/Lib.v
theories/Spec.v
theories/Shapes.v
theories/Decomp.v
theories/Basic.v
theories/Vowels.v
theories/Katna.v
theories/Dict.v
theories/Errs.v
theories/Builder.v
theories/Jvokaha.v
theories/Fuel.v
theories/Raises.v
theories/Inv.v
theories/Parts.v
theories/Clusters.v
theories/Zihevla.v
theories/Forms.v
theories/Chain.v
theories/Score.v
theories/Alt.v
theories/Lujvo.v
theories/Slinku.v
theories/Compound.v
theories/Whole.v
theories/Glides.v
theories/Optimal.v
theories/Props1.v
theories/Props2.v
theories/Props3.v
theories/Props4.v
theories/Props5.v
theories/Props6.v
theories/Props7.v
theories/Total.v
theories/Onset.v
theories/Pinned.v
theories/Found.v
theories/Tosm.v
theories/Props8.v
theories/Props9.v
theories/Props10.v
theories/Joint.v
theories/Swap.v
theories/Unique.v
theories/Round.v
theories/Props11.v
theories/Props12.v
theories/Props13.v
theories/Ext.v
theories/Ext2.v
theories/Ext3.v
theories/Ext4.v
theories/Props14.v
theories/Recast.v
theories/Props15.v
theories/RuleSpec.v
theories/Rules.v
theories/Rules2.v
theories/Props16.v
theories/ZiCut.v
theories/Props17.v
theories/Names.v
theories/Props18.v
theories/NameSpec.v
theories/NameRules.v
theories/NameCut.v
theories/Props19.v
theories/Mixed.v
theories/Props20.v
theories/Props21.v
theories/Middle.v
theories/Props22.v
theories/Cli.v
theories/Props23.v
theories/Props24.v
theories/Props25.v
theories/Safe.v
theories/Props26.v
theories/Props27.v
theories/Genlist.v
theories/Props28.v
theories/Props29.v
theories/Props30.v
